(** mcdump with a multi-packet receive queue: invariant of executions in which no receive fails. *)
From Coq Require Import ZArith List Bool Arith Lia Permutation.
From Verif Require Import Base ConcBase DumpWModel DumpWProofs DumpModel DumpSpec DumpProofs DumpMModel DumpMSpec.
Import ListNotations.
Open Scope Z_scope.

Definition hand (st : dst) : list handle := match net st with NIn k | NPoll k | NPush k => [k] | _ => [] end.
Definition chand (st : dst) : list handle := match coll st with CIov k _ | CPost k | CFree k => [k] | _ => [] end.
Definition handles (st : dst) : list handle := hand st ++ ring st ++ chand st ++ free st.
(** The bytes of a chunk from an iovec on *)
Definition pend (s : nat -> nat -> Z) (m : nat -> nat -> entry) (k : handle) (i : nat) : list Z := concat (map (iov s m (k_id k)) (seq i (2 * k_n k - i))).
Definition reading (st : dst) : list (handle * nat) := match coll st with CIov k i => [(k, i)] | _ => [] end.
Definition tocome (st : dst) : list Z :=
  flat_map (fun x => pend (sto st) (ent st) (fst x) (snd x)) (reading st) ++ flat_map (fun k => pend (sto st) (ent st) k 0) (ring st) ++ flat_map (fun k => pend (sto st) (ent st) k 0) (hand st).
Definition notlast (st : dst) (k : handle) : bool := match g_last st with Some l => negb (k_id l =? k_id k)%nat | None => true end.
(** Strides that the adapter has or has filled and that were not polled yet *)
Definition front (c : mconf) (st : dst) : list (nat * nat) :=
  match hand st with
  | [k] => if k_full k then [] else slots (m_d c) (k_id k) (tstr st)
  | _ => match g_last st with Some k => slots (m_d c) (k_id k) (tstr st) | None => [] end
  end.
Definition nfront (st : dst) : nat :=
  match hand st with [k] => if k_full k then 0 else 1 | _ => match g_last st with Some k => 1 | None => 0 end end%nat.
Definition cpost (c : mconf) (st : dst) : list (nat * nat) := match coll st with CFree k => if notlast st k then slots (m_d c) (k_id k) 0 else [] | _ => [] end.
Definition ncpost (st : dst) : nat := match coll st with CFree k => if notlast st k then 1 else 0 | _ => 0 end%nat.
Definition owned (c : mconf) (st : dst) : list (nat * nat) :=
  front c st ++ flat_map (fun k => slots (m_d c) (k_id k) 0) (filter (notlast st) (free st)) ++ cpost c st.
Definition pslots (c : mconf) (w : list nat) (u : nat) : list (nat * nat) :=
  match w with [] => [] | id :: w => slots (m_d c) id u ++ flat_map (fun i => slots (m_d c) i 0) w end.
Definition rng (cp : compl) : list (nat * nat) := map (pair (cp_chunk cp)) (seq (cp_from cp) (cp_n cp)).
Definition nonfill (q : list compl) : list compl := filter (fun cp => negb (cp_fill cp)) q.
Definition cp_wf (c : mconf) (cp : compl) : Prop :=
  cp_ok cp = true /\ ((1 <= cp_n cp)%nat /\ Z.of_nat (cp_n cp) < 32768) /\ (cp_from cp + cp_n cp <= max_records (m_d c))%nat /\
  exists len, cp_cnt cp = packed len (cp_n cp) (cp_fill cp) /\ Z.of_nat len < 65536 /\ (len <= cp_n cp * stride c)%nat.
Definition matches (c : mconf) (s : nat -> nat -> Z) (cp : compl) (x : list Z * Z) : Prop :=
  cp_cnt cp = packed (length (fst x)) (cp_n cp) false /\ cp_ns cp = snd x /\ get s (cp_chunk cp) (cp_from cp * stride c) (length (fst x)) = fst x /\
  zlen (fst x) < 65536 /\ (length (fst x) <= cp_n cp * stride c)%nat.
Definition rec_bytes (c : mconf) (x : list Z * Z) : list Z :=
  let d := m_d c in let len := zlen (fst x) in let incl := Z.min len (snaplen d) in
  le 4 (if stamps d then snd x / 10 ^ 9 else 0) ++ le 4 (if stamps d then snd x mod 10 ^ 9 else 0) ++ le 4 incl ++ le 4 len ++ firstn (Z.to_nat incl) (fst x).
Definition waiting (st : dst) (k : handle) : Prop := In k (hand st) \/ In k (ring st) \/ exists i, coll st = CIov k i.

Record dinv (c : mconf) (st : dst) : Prop := {
  j_w : winv (d_w (m_d c)) (wr st);
  j_ids : Permutation (map k_id (handles st)) (seq 0 (n_chunks (m_d c)));
  j_slots : flat_map rng (cq st) ++ pslots c (wqs st) (used st) = owned c st;
  j_used : (used st < max_records (m_d c))%nat /\ (wqs st = [] -> used st = 0%nat);
  j_cq : Forall (cp_wf c) (cq st);
  j_data : exists pol pnd, g_recvd st = pol ++ pnd /\ packets st = zlen pol /\ bytes st = total_len pol /\ Forall2 (matches c (sto st)) (nonfill (cq st)) pnd /\
           w_all (wr st) ++ match coll st with CStart => file_header (m_d c) | _ => [] end ++ tocome st = file_header (m_d c) ++ flat_map (rec_bytes c) pol;
  j_ent : forall k i, waiting st k -> (i < k_n k)%nat -> k_full k = false -> (e_off (ent st (k_id k) i) + e_len (ent st (k_id k) i) <= tstr st * stride c)%nat;
  j_box : forall k i, waiting st k -> (i < k_n k)%nat -> (e_off (ent st (k_id k) i) + e_len (ent st (k_id k) i) <= max_records (m_d c) * stride c)%nat;
  j_kn : forall k, In k (hand st) -> if k_full k then (k_n k <= max_records (m_d c))%nat else (k_n k <= tstr st < max_records (m_d c))%nat;
  j_tstr : match hand st with [k] => if k_full k then tstr st = 0%nat else True | _ => match g_last st with None => tstr st = 0%nat | Some _ => (tstr st < max_records (m_d c))%nat end end;
  j_len : Forall (fun x => zlen (fst x) < 65536) (g_recvd st);
  j_err : errors st = 0;
  j_full : forall k, In k (ring st) \/ (exists i, coll st = CIov k i) \/ coll st = CPost k -> k_full k = false -> g_last st = Some k;
  j_push : forall k, net st = NPush k -> k_full k = false -> w_stop (wr st) = true \/ remaining st = 0;
  j_poll : forall k, net st = NPoll k -> k_full k = false /\ 0 < remaining st;
  j_free : forall k, In k (free st) \/ coll st = CFree k -> notlast st k = true -> k_n k = 0%nat /\ k_full k = false;
  j_last : forall l, g_last st = Some l -> hand st = [] /\ net st <> NPop /\ (w_stop (wr st) = true \/ remaining st = 0) /\ In l (ring st ++ chand st ++ free st);
  j_rem : 0 <= remaining st /\ if count (m_d c) =? no_limit then remaining st = no_limit else packets st + remaining st = count (m_d c);
  j_pop : net st = NPop -> 0 < remaining st;
  j_rstop : rstop st = true <-> net st = NDone;
  j_ended : net st = NStop \/ net st = NDone -> w_stop (wr st) = true \/ remaining st = 0;
  j_end : coll st = CEnd \/ coll st = COver -> net st = NDone /\ ring st = [];
  j_lfull : forall l, g_last st = Some l -> k_full l = false;
  j_infl : infl st = (nfront st + length (filter (notlast st) (free st)) + ncpost st)%nat;
  j_over : coll st = COver -> endpc (wr st);
  j_early : coll st <> COver -> early (w_pc (wr st)) }.

Definition mconf_ok (c : mconf) : Prop := dconf_ok (m_d c) /\ Z.of_nat (max_records (m_d c)) <= 32768 /\ (4 <= stride c)%nat.

Lemma ids_nodup c st : dinv c st -> NoDup (map k_id (handles st)).
Proof. intro I. eapply Permutation_NoDup; [apply Permutation_sym, (j_ids c st I)|apply seq_NoDup]. Qed.
Lemma in_handles st k : In k (handles st) <-> In k (hand st) \/ In k (ring st) \/ In k (chand st) \/ In k (free st).
Proof. unfold handles. rewrite !in_app_iff. tauto. Qed.

(** Strides that are posted or completed are not among those whose data waits to be written. *)
Lemma owned_safe c st k x : dinv c st -> In x (owned c st) -> waiting st k -> fst x = k_id k -> k_full k = false /\ (tstr st <= snd x)%nat.
Proof.
  intros I H W E. pose proof (ids_nodup c st I) as N. assert (Wh : In k (handles st)). { apply in_handles. destruct W as [W|[W|(i & W)]]; auto. right. right. left. unfold chand. rewrite W. now left. }
  assert (Hk : forall k', In k' (handles st) -> k_id k' = fst x -> k' = k) by (intros k' Hk' E'; eapply ids_inj; eauto; congruence).
  unfold owned in H. apply in_app_or in H as [H|H]; [|apply in_app_or in H as [H|H]].
  - unfold front in H. destruct (hand st) as [|k0 [|? ?]] eqn:Eh.
    + destruct (g_last st) as [l|] eqn:El; [|destruct H]. apply in_slots in H as [H1 H2]. destruct (j_last c st I l El) as (_ & _ & _ & Il). assert (l = k) as <-; [|split; [exact (j_lfull c st I l El)|lia]]. apply Hk; [|congruence]. unfold handles. apply in_or_app. now right.
    + destruct (k_full k0) eqn:Ef; [destruct H|]. apply in_slots in H as [H1 H2]. assert (k0 = k) as <-; [|split; [exact Ef|lia]]. apply Hk; [|congruence]. apply in_handles. left. rewrite Eh. now left.
    + exfalso. unfold hand in Eh. destruct (net st); discriminate.
  - exfalso. apply in_flat_map in H as (k' & Hf & Hs). apply filter_In in Hf as [Hf _]. apply in_slots in Hs as [Hs _]. unfold handles in N. rewrite !app_assoc in N. eapply (ids_apart _ _ k k' N); [|exact Hf|congruence]. rewrite <- app_assoc. rewrite !in_app_iff. destruct W as [W|[W|(i & W)]]; auto. right. right. unfold chand. rewrite W. now left.
  - exfalso. unfold cpost in H. destruct (coll st) as [| | | |k'| |] eqn:Ec; try destruct H. destruct (notlast st k'); [|destruct H]. apply in_slots in H as [H _]. unfold handles in N. rewrite (app_assoc (hand st)) in N. eapply (ids_apart _ _ k k' N); [| |congruence]; [|apply in_or_app; left; unfold chand; rewrite Ec; now left]. apply in_or_app. destruct W as [W|[W|(i & W)]]; auto. congruence.
Qed.
Lemma owned_nodup c st : dinv c st -> NoDup (owned c st).
Proof.
  intro I. pose proof (ids_nodup c st I) as N. unfold owned. assert (Nf : NoDup (map k_id (free st))) by (unfold handles in N; rewrite !map_app in N; do 3 apply nodup_r in N; exact N).
  apply nodup_app'.
  - unfold front. destruct (hand st) as [|k0 [|? ?]]; [| |]; try (destruct (k_full k0); [constructor|apply nodup_slots]); destruct (g_last st); try constructor; apply nodup_slots.
  - apply nodup_app'.
    + apply nodup_flat. now apply nodup_filter_map.
    + unfold cpost. destruct (coll st); try constructor. destruct (notlast st k); [apply nodup_slots|constructor].
    + intros x X Y. apply in_flat_map in X as (k' & Hf & X). apply filter_In in Hf as [Hf _]. apply in_slots in X as [X _]. unfold cpost in Y. destruct (coll st) as [| | | |k| |] eqn:Ec; try destruct Y. destruct (notlast st k); [|destruct Y]. apply in_slots in Y as [Y _]. unfold handles in N. rewrite !app_assoc in N. eapply (ids_apart _ _ k k' N); [|exact Hf|congruence]. apply in_or_app. right. unfold chand. rewrite Ec. now left.
  - intros x X Y. unfold front in X. destruct (hand st) as [|k0 [|? ?]] eqn:Eh; [| |unfold hand in Eh; destruct (net st); discriminate].
    + destruct (g_last st) as [l|] eqn:El; [|destruct X]. apply in_slots in X as [X _]. apply in_app_or in Y as [Y|Y].
      * apply in_flat_map in Y as (k' & Hf & Y). apply filter_In in Hf as [_ Hf]. apply in_slots in Y as [Y _]. unfold notlast in Hf. rewrite El in Hf. apply negb_true_iff, Nat.eqb_neq in Hf. congruence.
      * unfold cpost in Y. destruct (coll st); try destruct Y. unfold notlast in Y. rewrite El in Y. destruct (Nat.eqb_spec (k_id l) (k_id k)); [destruct Y|]. apply in_slots in Y as [Y _]. congruence.
    + destruct (k_full k0); [destruct X|]. apply in_slots in X as [X _]. unfold handles in N. rewrite Eh in N. assert (Ap : forall k', In k' (ring st ++ chand st ++ free st) -> k_id k0 <> k_id k') by (intros; eapply (ids_apart [k0]); [exact N|now left|assumption]). apply in_app_or in Y as [Y|Y].
      * apply in_flat_map in Y as (k' & Hf & Y). apply filter_In in Hf as [Hf _]. apply in_slots in Y as [Y _]. apply (Ap k'); [rewrite !in_app_iff; auto|congruence].
      * unfold cpost in Y. destruct (coll st) as [| | | |k'| |] eqn:Ec; try destruct Y. destruct (notlast st k'); [|destruct Y]. apply in_slots in Y as [Y _]. apply (Ap k'); [rewrite !in_app_iff; right; left; unfold chand; rewrite Ec; now left|congruence].
Qed.

(** *** Storage *)
Lemma get_put s id off d : get (put s id off d) id off (length d) = d.
Proof.
  unfold get, put. apply (nth_ext _ _ 0 0); [now rewrite map_length, seq_length|]. rewrite map_length, seq_length. intros n Hn.
  erewrite nth_indep by (rewrite map_length, seq_length; exact Hn). rewrite (map_nth _ (seq off (length d)) 0%nat n), seq_nth by exact Hn. rewrite Nat.eqb_refl. destruct (Nat.leb_spec off (off + n)); [|lia]. destruct (Nat.ltb_spec (off + n) (off + length d)); [|lia]. cbn [andb]. now replace (off + n - off)%nat with n by lia.
Qed.
Lemma get_put_other s id off d id' off' len : id' <> id \/ (off' + len <= off)%nat \/ (off + length d <= off')%nat -> get (put s id off d) id' off' len = get s id' off' len.
Proof.
  intro H. unfold get, put. apply map_ext_in. intros j Hj. apply in_seq in Hj. destruct (Nat.eqb_spec id' id); [|reflexivity]. destruct (Nat.leb_spec off j); [|reflexivity]. destruct (Nat.ltb_spec j (off + length d)); [|reflexivity]. exfalso. destruct H as [H|H]; [congruence|lia].
Qed.
Lemma get_firstn s id off n m : (n <= m)%nat -> get s id off n = firstn n (get s id off m).
Proof. intro H. unfold get. replace m with (n + (m - n))%nat by lia. rewrite seq_app, map_app, firstn_app, map_length, seq_length, Nat.sub_diag, firstn_O, app_nil_r, firstn_all2; [reflexivity|]. now rewrite map_length, seq_length. Qed.
Lemma strides_ok c n : (4 <= stride c)%nat -> (n <= strides c n * stride c)%nat /\ (1 <= strides c n)%nat /\ (Z.of_nat n < 65536 -> Z.of_nat (strides c n) < 32768).
Proof.
  intro H. unfold strides. set (q := ((n + stride c - 1) / stride c)%nat). pose proof (Nat.div_mod (n + stride c - 1) (stride c) ltac:(lia)) as D. pose proof (Nat.mod_upper_bound (n + stride c - 1) (stride c) ltac:(lia)) as M. fold q in D. split; [nia|]. split; [lia|]. intro L.
  assert (Z.of_nat q < 32767) by (apply (Z.mul_lt_mono_pos_l (Z.of_nat (stride c))); [lia|]; rewrite <- Nat2Z.inj_mul; lia). lia.
Qed.
Lemma read_packed c len n fill ts : Z.of_nat len < 65536 -> Z.of_nat n < 32768 ->
  read_wc c (packed len n fill) ts = (Z.of_nat len, (ts * stride c)%nat, fill, (max_records (m_d c) <=? ts + n)%nat, if (max_records (m_d c) <=? ts + n)%nat then 0%nat else (ts + n)%nat).
Proof.
  intros Hl Hz. unfold read_wc, packed. set (f := if fill then 2 ^ 31 else 0).
  assert (S16 : Z.shiftr (Z.of_nat len + 65536 * Z.of_nat n + f) 16 = Z.of_nat n + f / 65536).
  { rewrite Z.shiftr_div_pow2 by lia. change (2 ^ 16) with 65536. symmetry. apply (Z.div_unique _ _ _ (Z.of_nat len)); [lia|]. unfold f. destruct fill; [change (2 ^ 31 / 65536) with 32768|change (0 / 65536) with 0]; lia. }
  assert (B : Z.land (Z.of_nat n + f / 65536) 32768 = f / 65536).
  { change 32768 with (2 ^ 15) at 1. apply Z.bits_inj'. intros i Hi. rewrite Z.land_spec, Z.pow2_bits_eqb by lia. destruct (Z.eqb_spec 15 i) as [<-|Ne].
    - rewrite andb_true_r. rewrite !Z.testbit_odd, !Z.shiftr_div_pow2 by lia. unfold f. destruct fill; [change (2 ^ 31 / 65536) with 32768|change (0 / 65536) with 0]; [replace ((Z.of_nat n + 32768) / 2 ^ 15) with 1; [reflexivity|]|replace ((Z.of_nat n + 0) / 2 ^ 15) with 0; [reflexivity|]]; change (2 ^ 15) with 32768; [apply (Z.div_unique _ _ _ (Z.of_nat n))|apply (Z.div_unique _ _ _ (Z.of_nat n))]; lia.
    - rewrite andb_false_r. unfold f. destruct fill; [change (2 ^ 31 / 65536) with (2 ^ 15); rewrite Z.pow2_bits_eqb by lia; symmetry; now apply Z.eqb_neq|change (0 / 65536) with 0; now rewrite Z.bits_0]. }
  rewrite S16, B. assert (F : negb (f / 65536 =? 0) = fill) by (unfold f; destruct fill; reflexivity). rewrite F.
  assert (N : Z.to_nat (if fill then Z.of_nat n + f / 65536 - 32768 else Z.of_nat n + f / 65536) = n) by (unfold f; destruct fill; [change (2 ^ 31 / 65536) with 32768|change (0 / 65536) with 0]; lia). rewrite N.
  assert (A : Z.land (Z.of_nat len + 65536 * Z.of_nat n + f) 65535 = Z.of_nat len).
  { change 65535 with (Z.ones 16). rewrite Z.land_ones by lia. change (2 ^ 16) with 65536. symmetry. unfold f. destruct fill; [change (2 ^ 31) with (32768 * 65536)|]; [apply (Z.mod_unique _ _ (Z.of_nat n + 32768))|apply (Z.mod_unique _ _ (Z.of_nat n))]; lia. }
  rewrite A. reflexivity.
Qed.
Lemma pend_ext s s' m m' k i : (forall j, (j < k_n k)%nat -> m' (k_id k) j = m (k_id k) j /\ get s' (k_id k) (e_off (m (k_id k) j)) (e_len (m (k_id k) j)) = get s (k_id k) (e_off (m (k_id k) j)) (e_len (m (k_id k) j))) -> pend s' m' k i = pend s m k i.
Proof.
  intro H. unfold pend. f_equal. apply map_ext_in. intros j Hj. apply in_seq in Hj. unfold iov. destruct (H (j / 2)%nat) as [-> ->]; [apply Nat.div_lt_upper_bound; lia|]. reflexivity.
Qed.
Lemma tocome_ext st s' m' : (forall k j, waiting st k -> (j < k_n k)%nat -> m' (k_id k) j = ent st (k_id k) j /\ get s' (k_id k) (e_off (ent st (k_id k) j)) (e_len (ent st (k_id k) j)) = get (sto st) (k_id k) (e_off (ent st (k_id k) j)) (e_len (ent st (k_id k) j))) ->
  flat_map (fun x => pend s' m' (fst x) (snd x)) (reading st) ++ flat_map (fun k => pend s' m' k 0) (ring st) ++ flat_map (fun k => pend s' m' k 0) (hand st) = tocome st.
Proof.
  intro H. unfold tocome. f_equal; [|f_equal]; apply flat_ext; intros x Hx; apply pend_ext; intros j Hj; apply H; auto; unfold waiting; auto.
  right. right. unfold reading in Hx. destruct (coll st); try destruct Hx as [<-|[]]; try destruct Hx. cbn. now exists i.
Qed.
Lemma pslots_0 c w : pslots c w 0 = flat_map (fun i => slots (m_d c) i 0) w. Proof. destruct w; reflexivity. Qed.
Lemma pslots_snoc c w u id : (w = [] -> u = 0%nat) -> pslots c (w ++ [id]) u = pslots c w u ++ slots (m_d c) id 0.
Proof. intro H. destruct w as [|i w]; [rewrite H by reflexivity; cbn [app pslots flat_map]; apply app_nil_r|]. cbn [app pslots]. rewrite flat_map_app. cbn [flat_map]. rewrite app_nil_r. apply app_assoc. Qed.
Lemma slots_rng c id from n : (from + n <= max_records c)%nat -> slots c id from = map (pair id) (seq from n) ++ slots c id (from + n).
Proof. intro H. unfold slots. rewrite <- map_app, <- seq_app. do 2 f_equal. lia. Qed.

Lemma dinv_init c s e wm : mconf_ok c -> dinv c (dinit c s e wm).
Proof.
  intros ((W & M & N & Ml & Ct & _) & _ & _). constructor; unfold dinit; cbn [net coll ring rstop free wqs used cq sto ent tstr infl remaining packets bytes errors wr g_recvd g_last]; try discriminate.
  - destruct W as (A & B & _). now apply winv_init.
  - unfold handles, hand, chand. cbn [net coll ring free app]. rewrite map_map. cbn [k_id]. rewrite map_id. apply Permutation_refl.
  - unfold owned, front, cpost, hand, notlast. cbn [net coll free g_last app flat_map]. rewrite app_nil_r, pslots_0.
    assert (X : forall n j, flat_map (fun i => slots (m_d c) i 0) (seq j n) = flat_map (fun k => slots (m_d c) (k_id k) 0) (filter (fun _ => true) (map (fun i => {| k_id := i; k_n := 0; k_full := false |}) (seq j n)))) by (induction n as [|n IH]; intro j; [reflexivity|]; cbn [seq flat_map map filter k_id]; now rewrite IH). apply X.
  - auto.
  - constructor.
  - exists [], []. repeat split; constructor.
  - intros k i [[]|[[]|(j & X)]]. discriminate X.
  - intros k i [[]|[[]|(j & X)]]. discriminate X.
  - intros k [].
  - reflexivity.
  - constructor.
  - reflexivity.
  - intros k [[]|[(i & X)|X]]; discriminate.
  - intros k [H|H] _; [|discriminate]. apply in_map_iff in H as (i & <- & _). split; reflexivity.
  - split; [lia|]. destruct (Z.eqb_spec (count (m_d c)) no_limit); [assumption|lia].
  - split; discriminate.
  - intros [H|H]; discriminate.
  - intros [H|H]; discriminate.
  - unfold nfront, ncpost, hand, notlast. cbn [net coll g_last free]. rewrite Nat.add_0_r, Nat.add_0_l. assert (X : forall l : list handle, length (filter (fun _ => true) l) = length l) by (induction l as [|? ? IH]; cbn [filter length]; congruence). rewrite X, map_length, seq_length. reflexivity.
  - intros _. exact Logic.I.
Qed.

(** Strides of two completions, or of a completion and those still posted, are apart *)
Lemma rng_apart (c1 f1 n1 c2 f2 n2 : nat) : (1 <= n1)%nat -> (1 <= n2)%nat -> (forall x, In x (map (pair c1) (seq f1 n1)) -> In x (map (pair c2) (seq f2 n2)) -> False) -> c1 <> c2 \/ (f1 + n1 <= f2)%nat \/ (f2 + n2 <= f1)%nat.
Proof.
  intros H1 H2 D. destruct (Nat.eq_dec c1 c2) as [->|]; [right|now left]. destruct (Nat.le_gt_cases (f1 + n1) f2); [now left|]. destruct (Nat.le_gt_cases (f2 + n2) f1); [now right|]. exfalso. apply (D (c2, Nat.max f1 f2)); apply in_map, in_seq; lia.
Qed.
Lemma nodup_app_disj {A} (l l' : list A) x : NoDup (l ++ l') -> In x l -> In x l' -> False.
Proof. induction l as [|a l IH]; intros N X Y; [destruct X|]. cbn [app] in N. inversion_clear N as [|? ? N1 N2]. destruct X as [->|X]; [apply N1, in_or_app; now right|now apply IH]. Qed.
Lemma nonfill_app l l' : nonfill (l ++ l') = nonfill l ++ nonfill l'. Proof. apply filter_app. Qed.
Lemma put_safe c st pkt id w : mconf_ok c -> dinv c st -> wqs st = id :: w -> (used st + strides c (length pkt) <= max_records (m_d c))%nat ->
  forall k i, waiting st k -> (i < k_n k)%nat -> get (put (sto st) id (used st * stride c) pkt) (k_id k) (e_off (ent st (k_id k) i)) (e_len (ent st (k_id k) i)) = get (sto st) (k_id k) (e_off (ent st (k_id k) i)) (e_len (ent st (k_id k) i)).
Proof.
  intros (_ & _ & C) I Ew U k i W L. destruct (strides_ok c (length pkt) C) as (S1 & S2 & _). apply get_put_other. destruct (Nat.eq_dec (k_id k) id) as [E|]; [right; left|now left].
  assert (Io : In (id, used st) (owned c st)) by (rewrite <- (j_slots c st I), Ew; apply in_or_app; right; unfold pslots; apply in_or_app; left; apply in_slots; cbn; lia).
  destruct (owned_safe c st k _ I Io W (eq_sym E)) as [F T]. cbn [snd] in T. pose proof (j_ent c st I k i W L F). nia.
Qed.
Lemma dinv_recv c st pkt ns st' : mconf_ok c -> dinv c st -> hw_recv c st pkt ns = Some st' -> dinv c st'.
Proof.
  intros C I H. unfold hw_recv in H. destruct (wqs st) as [|id w] eqn:Ew; [discriminate|]. destruct (Nat.leb_spec (used st + strides c (length pkt)) (max_records (m_d c))) as [U|]; [|discriminate]. destruct (Z.ltb_spec (zlen pkt) 65536) as [Lp|]; [|discriminate]. cbn [andb] in H.
  pose proof (put_safe c st pkt id w C I Ew U) as Ps. destruct C as (_ & _ & C). destruct (strides_ok c (length pkt) C) as (S1 & S2 & S3). specialize (S3 Lp). set (n := strides c (length pkt)) in *.
  destruct (advance c (id :: w) (used st + n)) as [w' u'] eqn:Ea. injection H as <-. pose proof (owned_nodup c st I) as No.
  assert (Wk : forall st1, hand st1 = hand st -> ring st1 = ring st -> coll st1 = coll st -> forall k, waiting st1 k -> waiting st k) by (unfold waiting; intros st1 -> -> ->; auto).
  assert (Ap : map (pair id) (seq (used st) n) ++ pslots c w' u' = pslots c (id :: w) (used st) /\ (u' < max_records (m_d c))%nat /\ (w' = [] -> u' = 0%nat)).
  { pose proof (j_used c st I) as [Ju _]. unfold advance in Ea. cbn [pslots]. rewrite (slots_rng (m_d c) id (used st) n U). destruct (Nat.ltb_spec (used st + n) (max_records (m_d c))); injection Ea as <- <-; [split; [cbn [pslots]; now rewrite <- app_assoc|split; [assumption|discriminate]]|]. cbn [tl]. rewrite pslots_0, slots_full by lia. rewrite app_nil_r. split; [reflexivity|]. split; [lia|reflexivity]. }
  destruct Ap as (Ap & Ua & Ub).
  destruct I. constructor; unfold set_card; cbn [net coll ring rstop free wqs used cq sto ent tstr infl remaining packets bytes errors wr g_recvd g_last]; auto.
  - rewrite flat_map_snoc, <- app_assoc. unfold rng at 2. cbn [cp_chunk cp_from cp_n]. rewrite Ap, <- Ew. exact j_slots0.
  - apply Forall_app. split; [assumption|]. constructor; [|constructor]. unfold cp_wf. cbn [cp_ok cp_n cp_from cp_cnt cp_fill]. repeat split; try lia. exists (length pkt). repeat split; auto.
  - destruct j_data0 as (pol & pnd & E1 & E2 & E3 & E4 & E5). exists pol, (pnd ++ [(pkt, ns)]). split; [rewrite E1, <- app_assoc; reflexivity|]. split; [exact E2|]. split; [exact E3|]. split.
    + rewrite nonfill_app. apply Forall2_app.
      * assert (Nc : forall cp, In cp (nonfill (cq st)) -> cp_chunk cp <> id \/ (cp_from cp + cp_n cp <= used st)%nat \/ (used st + n <= cp_from cp)%nat).
        { intros cp Hc. apply filter_In in Hc as [Hc _]. rewrite Forall_forall in j_cq0. destruct (j_cq0 cp Hc) as (_ & (Hn & _) & _ & _). apply (rng_apart (cp_chunk cp) (cp_from cp) (cp_n cp) id (used st) n); [lia|lia|]. intros x X Y. rewrite <- j_slots0, Ew, <- Ap in No. apply (nodup_app_disj _ _ x No); [apply in_flat_map; exists cp; split; assumption|apply in_or_app; now left]. }
        clear - E4 Nc S1. induction E4 as [|cp x l l' H _ IH]; constructor; [|apply IH; intros; apply Nc; now right]. destruct H as (M1 & M2 & M3 & M4 & M5). repeat split; auto. rewrite get_put_other; [exact M3|]. destruct (Nc cp (or_introl eq_refl)) as [N|[N|N]]; [now left|right; left|right; right]; nia.
      * cbn [nonfill filter cp_fill negb]. constructor; [|constructor]. unfold matches. cbn [cp_cnt cp_n cp_ns cp_chunk cp_from fst snd]. repeat split; auto. apply get_put.
    + rewrite <- E5. do 2 f_equal. unfold tocome at 1. cbn [reading coll ring hand net sto ent]. apply (tocome_ext st). intros k j W L. split; [reflexivity|]. now apply Ps.
  - apply Forall_app. split; [assumption|]. repeat constructor. exact Lp.
Qed.
Lemma dinv_fill c st st' : mconf_ok c -> dinv c st -> hw_fill c st = Some st' -> dinv c st'.
Proof.
  intros C I H. unfold hw_fill in H. destruct (wqs st) as [|id w] eqn:Ew; [discriminate|]. destruct (Nat.ltb_spec 0 (used st)) as [U|]; [|discriminate]. injection H as <-. destruct C as ((_ & Mp & _) & Mr & C).
  destruct I. pose proof j_used0 as [Ju _]. constructor; unfold set_card; cbn [net coll ring rstop free wqs used cq sto ent tstr infl remaining packets bytes errors wr g_recvd g_last]; auto.
  - rewrite flat_map_snoc, <- app_assoc. unfold rng at 2. cbn [cp_chunk cp_from cp_n]. rewrite pslots_0. etransitivity; [|exact j_slots0]. rewrite Ew. cbn [pslots]. rewrite (slots_rng (m_d c) id (used st) (max_records (m_d c) - used st)) by lia. rewrite (slots_full _ _ (used st + _)) by lia. now rewrite app_nil_r.
  - apply Forall_app. split; [assumption|]. constructor; [|constructor]. unfold cp_wf. cbn [cp_ok cp_n cp_from cp_cnt cp_fill]. repeat split; try lia. exists 0%nat. split; [reflexivity|]. split; [lia|apply Nat.le_0_l].
  - destruct j_data0 as (pol & pnd & E1 & E2 & E3 & E4 & E5). exists pol, pnd. rewrite nonfill_app. cbn [nonfill filter cp_fill negb]. rewrite app_nil_r. repeat split; auto.
Qed.

Lemma perm_ids c st st' : Permutation (handles st) (handles st') -> Permutation (map k_id (handles st)) (seq 0 (n_chunks c)) -> Permutation (map k_id (handles st')) (seq 0 (n_chunks c)).
Proof. intros P H. eapply Permutation_trans; [apply Permutation_map, Permutation_sym, P|exact H]. Qed.
Lemma pend_grow s m k f : pend s m {| k_id := k_id k; k_n := S (k_n k); k_full := f |} 0 = pend s m k 0 ++ record_header (m (k_id k) (k_n k)) ++ get s (k_id k) (e_off (m (k_id k) (k_n k))) (e_len (m (k_id k) (k_n k))).
Proof.
  unfold pend. cbn [k_id k_n]. rewrite !Nat.sub_0_r. replace (2 * S (k_n k))%nat with (2 * k_n k + 2)%nat by lia. rewrite seq_app, map_app, concat_app. f_equal. cbn [seq map concat Nat.add]. unfold iov.
  replace (Nat.even (2 * k_n k)) with true by (symmetry; apply Nat.even_spec; now exists (k_n k)). replace (Nat.even (S (2 * k_n k))) with false by (rewrite Nat.even_succ, <- Nat.negb_even; replace (Nat.even (2 * k_n k)) with true; [reflexivity|symmetry; apply Nat.even_spec; now exists (k_n k)]).
  replace (2 * k_n k / 2)%nat with (k_n k) by (rewrite Nat.mul_comm, Nat.div_mul; lia). replace (S (2 * k_n k) / 2)%nat with (k_n k) by (apply (Nat.div_unique _ 2 _ 1); lia). rewrite app_nil_r. reflexivity.
Qed.
(** Nothing but the program counter of the network thread changes, and it holds the same chunk *)
Lemma dinv_pc c st p : dinv c st -> hand (set_net st p) = hand st -> p <> NPop \/ (g_last st = None /\ 0 < remaining st) -> p <> NDone -> net st <> NDone ->
  (forall k, p = NPush k -> k_full k = false -> w_stop (wr st) = true \/ remaining st = 0) -> (forall k, p = NPoll k -> k_full k = false /\ 0 < remaining st) -> (p = NStop -> w_stop (wr st) = true \/ remaining st = 0) -> dinv c (set_net st p).
Proof.
  intros I Hh Hp Hd Hn P1 P2 P3. destruct I. constructor; unfold set_net; cbn [coll ring rstop free wqs used cq sto ent tstr infl remaining packets bytes errors wr g_recvd g_last net]; auto; fold (set_net st p).
  - unfold handles in *. rewrite Hh. exact j_ids0.
  - unfold owned, front in *. rewrite Hh. exact j_slots0.
  - destruct j_data0 as (pol & pnd & E1 & E2 & E3 & E4 & E5). exists pol, pnd. repeat split; auto. unfold tocome in *. rewrite Hh. exact E5.
  - intros k i W. apply j_ent0. unfold waiting in *. rewrite Hh in W. exact W.
  - intros k i W. apply j_box0. unfold waiting in *. rewrite Hh in W. exact W.
  - rewrite Hh. assumption.
  - rewrite Hh. assumption.
  - intros l Hl. destruct (j_last0 l Hl) as (X1 & _ & X). rewrite Hh. split; [exact X1|]. split; [|exact X]. destruct Hp as [Hp|[Hp _]]; [exact Hp|congruence].
  - intros ->. destruct Hp as [Hp|[_ Hp]]; [now elim Hp|exact Hp].
  - rewrite j_rstop0. split; intro; congruence.
  - intros [->| ->]; [now apply P3|now elim Hd].
  - intros X. apply j_end0 in X as [X _]. congruence.
  - unfold nfront in *. rewrite Hh. exact j_infl0.
Qed.

Lemma dinv_net c st got st' : mconf_ok c -> dinv c st -> net_step c st got = Some st' -> dinv c st'.
Proof.
  intros C I H. pose proof C as ((_ & Mp & _ & Ml & Ct & Sn) & Mr & St). unfold net_step in H. destruct (net st) as [| |k|k|k| |] eqn:En; try discriminate.
  - (* outer loop *) injection H as <-. pose proof (j_rem c st I) as [Rp _]. apply dinv_pc; auto.
    + unfold hand. cbn [net set_net]. rewrite En. destruct (_ || _); reflexivity.
    + destruct (w_stop (wr st)) eqn:Es; [left; discriminate|]. destruct (Z.ltb_spec 0 (remaining st)) as [Hr|Hr]; cbn [orb negb]; [right|left; discriminate]. split; [|exact Hr]. destruct (g_last st) as [l|] eqn:El; [|reflexivity]. destruct (j_last c st I l El) as (_ & _ & [X|X] & _); [congruence|lia].
    + destruct (_ || _); discriminate.
    + congruence.
    + intros k X. destruct (_ || _); discriminate.
    + intros k X. destruct (_ || _); discriminate.
    + destruct (w_stop (wr st)); [now left|]. destruct (Z.ltb_spec 0 (remaining st)) as [Hr|Hr]; cbn [orb negb]; [discriminate|right; lia].
  - (* pop *) destruct (free st) as [|k fr] eqn:Ef; [discriminate|]. injection H as <-.
    assert (Nl : g_last st = None) by (destruct (g_last st) as [l|] eqn:El; [|reflexivity]; destruct (j_last c st I l El) as (_ & X & _); congruence).
    assert (K0 : k_n k = 0%nat /\ k_full k = false) by (apply (j_free c st I); [left; rewrite Ef; now left|unfold notlast; now rewrite Nl]). destruct K0 as [K0 K1]. pose proof (j_pop c st I En) as Rp.
    assert (T0 : tstr st = 0%nat) by (pose proof (j_tstr c st I) as X; unfold hand in X; rewrite En, Nl in X; exact X).
    destruct I. constructor; cbn [net coll ring rstop free wqs used cq sto ent tstr infl remaining packets bytes errors wr g_recvd g_last]; auto; try discriminate.
    + eapply perm_ids; [|exact j_ids0]. unfold handles, hand. cbn [net ring chand coll free]. rewrite En, Ef. cbn [app]. rewrite !app_assoc. apply Permutation_sym, Permutation_middle.
    + rewrite j_slots0. unfold owned, front, hand, cpost, notlast. cbn [net coll free g_last tstr]. rewrite En, Ef, Nl, K1, T0. cbn [filter flat_map app]. rewrite <- app_assoc. reflexivity.
    + destruct j_data0 as (pol & pnd & E1 & E2 & E3 & E4 & E5). exists pol, pnd. repeat split; auto. rewrite <- E5. unfold tocome, hand, reading. cbn [net coll ring sto ent]. rewrite En. cbn [flat_map]. unfold pend at 3. rewrite K0. cbn [Nat.mul Nat.sub seq map concat app]. reflexivity.
    + intros k1 i W L. assert (W' : k1 = k \/ waiting st k1) by (unfold waiting, hand in *; cbn [net ring coll] in W; rewrite En; destruct W as [[->|[]]|W]; auto). destruct W' as [->|W']; [lia|]. now apply j_ent0.
    + intros k1 i W L. assert (W' : k1 = k \/ waiting st k1) by (unfold waiting, hand in *; cbn [net ring coll] in W; rewrite En; destruct W as [[->|[]]|W]; auto). destruct W' as [->|W']; [lia|]. now apply j_box0.
    + unfold hand. cbn [net]. intros k1 [<-|[]]. rewrite K0, K1, T0. lia.
    + unfold hand. cbn [net]. now rewrite K1.
    + intros k1 [X|X]; apply j_free0; [left; rewrite Ef; now right|now right].
    + intros l Hl. congruence.
    + rewrite j_rstop0, En. split; discriminate.
    + intros [X|X]; discriminate.
    + intros X. apply j_end0 in X as [X _]. congruence.
    + rewrite j_infl0. unfold nfront, ncpost, hand, notlast. cbn [net coll free g_last]. rewrite En, Ef, Nl, K1. cbn [filter length]. lia.
  - (* inner loop *) injection H as <-. pose proof (j_rem c st I) as [Rp _]. destruct (w_stop (wr st)) eqn:Es; cbn [orb]; [|destruct (Z.ltb_spec 0 (remaining st)) as [Hr|Hr]; cbn [orb negb]; [destruct (k_full k) eqn:Ef|]]; (apply dinv_pc; auto; [unfold hand; cbn [net set_net]; now rewrite En|left; discriminate|discriminate|congruence|..]); try discriminate.
    + intros k1 X. injection X as <-. congruence.
    + intros k1 X. injection X as <-. auto.
    + intros k1 X. right. lia.
  - (* poll *) destruct (j_poll c st I k En) as [Kf Rp]. destruct got.
    2:{ injection H as <-. apply dinv_pc; auto; try discriminate; [unfold hand; cbn [net set_net]; now rewrite En|left; discriminate|congruence]. }
    destruct (cq st) as [|cp q] eqn:Eq; [discriminate|].
    assert (Nl : g_last st = None) by (destruct (g_last st) as [l|] eqn:El; [|reflexivity]; destruct (j_last c st I l El) as (X & _); unfold hand in X; rewrite En in X; discriminate).
    assert (Kn : (k_n k <= tstr st < max_records (m_d c))%nat) by (pose proof (j_kn c st I k) as X; unfold hand in X; rewrite En, Kf in X; apply X; now left).
    pose proof (j_cq c st I) as Fq. rewrite Eq in Fq. inversion_clear Fq as [|? ? Fcp Fq']. destruct Fcp as (W1 & (W2 & W2') & W3 & W4).
    assert (Hk : cp_chunk cp = k_id k /\ cp_from cp = tstr st /\ flat_map rng q ++ pslots c (wqs st) (used st) = slots (m_d c) (k_id k) (tstr st + cp_n cp) ++ flat_map (fun k => slots (m_d c) (k_id k) 0) (filter (notlast st) (free st)) ++ cpost c st).
    { pose proof (j_slots c st I) as J. rewrite Eq in J. unfold owned, front, hand in J. rewrite En, Kf in J. cbn [flat_map] in J. rewrite <- app_assoc in J. assert (cp_chunk cp = k_id k /\ cp_from cp = tstr st) as [J1 J2]. { rewrite slots_cons in J by lia. unfold rng in J. destruct (cp_n cp) as [|n]; [lia|]. cbn [seq map app] in J. injection J as J1 J2 J3. auto. } split; [exact J1|]. split; [exact J2|]. rewrite (slots_rng _ _ (tstr st) (cp_n cp)) in J by lia. rewrite <- app_assoc in J. unfold rng at 1 in J. rewrite J1, J2 in J. apply app_inv_head in J. exact J. }
    destruct Hk as (Hk1 & Hk2 & Hq). rewrite Hk2 in W3.
    pose proof (j_data c st I) as (pol & pnd & E1 & E2 & E3 & E4 & E5). rewrite Eq in E4. cbn [nonfill filter] in E4. fold nonfill in E4.
    assert (X : exists len, read_wc c (cp_cnt cp) (tstr st) = (Z.of_nat len, (tstr st * stride c)%nat, cp_fill cp, (max_records (m_d c) <=? tstr st + cp_n cp)%nat, if (max_records (m_d c) <=? tstr st + cp_n cp)%nat then 0%nat else (tstr st + cp_n cp)%nat) /\
      (len <= cp_n cp * stride c)%nat /\ exists x pnd', pnd = (if cp_fill cp then [] else [x]) ++ pnd' /\ Forall2 (matches c (sto st)) (nonfill q) pnd' /\ (cp_fill cp = false -> len = length (fst x) /\ cp_ns cp = snd x /\ get (sto st) (k_id k) (tstr st * stride c) len = fst x)).
    { destruct (cp_fill cp) eqn:Efl; cbn [negb] in E4.
      - destruct W4 as (len & Wl1 & Wl2 & Wl3). exists len. split; [rewrite Wl1; now apply read_packed|]. split; [exact Wl3|]. exists ([], 0), pnd. repeat split; [exact E4|discriminate..].
      - inversion E4 as [|? x ? pnd' Mx E4' Z1 Z2]; subst pnd. destruct Mx as (M1 & M2 & M3 & M4 & M5). exists (length (fst x)). split; [rewrite M1; now apply read_packed|]. split; [exact M5|]. exists x, pnd'. rewrite Hk1, Hk2 in M3. repeat split; auto. }
    destruct X as (len & Er & Hlen & x & pnd' & -> & F' & Hx). rewrite W1, Er in H. injection H as <-. clear E4 Er.
    set (last := (max_records (m_d c) <=? tstr st + cp_n cp)%nat). set (fill := cp_fill cp) in *.
    set (incl := if Z.of_nat len <=? snaplen (m_d c) then Z.of_nat len else snaplen (m_d c)). assert (Ei : incl = Z.min (Z.of_nat len) (snaplen (m_d c))) by (unfold incl; destruct (Z.leb_spec (Z.of_nat len) (snaplen (m_d c))); lia).
    set (e' := {| e_sec := if stamps (m_d c) then cp_ns cp / 10 ^ 9 else 0; e_nsec := if stamps (m_d c) then cp_ns cp mod 10 ^ 9 else 0; e_incl := incl; e_orig := Z.of_nat len; e_off := (tstr st * stride c)%nat; e_len := Z.to_nat incl |}).
    set (m' := if fill then ent st else set_ent (ent st) (k_id k) (k_n k) e'). assert (Me : fill = false -> m' (k_id k) (k_n k) = e') by (unfold m'; intros ->; unfold set_ent; now rewrite !Nat.eqb_refl).
    assert (Mk : forall s, (s < k_n k)%nat -> m' (k_id k) s = ent st (k_id k) s) by (intros s Hs; unfold m'; destruct fill; [reflexivity|]; unfold set_ent; destruct (Nat.eqb_spec s (k_n k)); [lia|]; now rewrite andb_false_r).
    pose proof (ids_nodup c st I) as Nd. unfold handles, hand in Nd. rewrite En in Nd.
    assert (Mo : forall k1, In k1 (ring st) \/ (exists i, coll st = CIov k1 i) -> forall s, m' (k_id k1) s = ent st (k_id k1) s).
    { intros k1 W s. assert (k_id k <> k_id k1). { eapply (ids_apart [k]); [exact Nd|now left|]. destruct W as [W|(i & W)]; [apply in_or_app; now left|]. apply in_or_app. right. apply in_or_app. left. unfold chand. rewrite W. now left. } unfold m'. destruct fill; [reflexivity|]. unfold set_ent. destruct (Nat.eqb_spec (k_id k1) (k_id k)); [congruence|reflexivity]. }
    assert (Fr : last = true \/ last = false /\ (tstr st + cp_n cp < max_records (m_d c))%nat) by (unfold last; destruct (Nat.leb_spec (max_records (m_d c)) (tstr st + cp_n cp)); auto).
    rewrite Kf. cbn [orb]. set (kk := {| k_id := k_id k; k_n := if fill then k_n k else S (k_n k); k_full := last |}).
    destruct I. constructor; cbn [net coll ring rstop free wqs used cq sto ent tstr infl remaining packets bytes errors wr g_recvd g_last]; auto; try discriminate.
    + unfold handles, hand in *. cbn [net ring chand coll free] in *. rewrite En in j_ids0. exact j_ids0.
    + rewrite Hq. unfold owned, front, hand. cbn [net tstr]. unfold kk at 1 2. cbn [k_full k_id]. destruct Fr as [F|[F Lt]]; rewrite F; [|reflexivity]. unfold last in F. apply Nat.leb_le in F. rewrite slots_full by exact F. reflexivity.
    + exists (pol ++ if fill then [] else [x]), pnd'. split; [now rewrite E1, <- app_assoc|]. split; [rewrite zlen_app, E2; unfold zlen; destruct fill; cbn [length]; lia|]. split; [destruct fill; [now rewrite app_nil_r|]; destruct (Hx eq_refl) as (X1 & _); rewrite total_snoc, E3, X1; reflexivity|]. split; [exact F'|].
      rewrite flat_map_app, !app_assoc, <- (app_assoc (w_all (wr st))). rewrite <- E5, <- !app_assoc. do 2 f_equal. unfold tocome, hand. cbn [reading coll ring net sto ent]. rewrite En. cbn [flat_map]. rewrite !app_nil_r, <- !app_assoc. f_equal; [|f_equal].
      * apply flat_ext. intros y Hy. apply pend_ext. intros s _. split; [|reflexivity]. apply Mo. right. unfold reading in Hy. destruct (coll st); try destruct Hy as [<-|[]]; try destruct Hy. now exists i.
      * apply flat_ext. intros y Hy. apply pend_ext. intros s _. split; [|reflexivity]. apply Mo. now left.
      * unfold kk. destruct fill; [cbn [flat_map]; now rewrite app_nil_r|]. destruct (Hx eq_refl) as (X1 & X2 & X3). rewrite pend_grow. rewrite (Me eq_refl). f_equal; [apply pend_ext; intros s Hs; split; [now apply Mk|reflexivity]|]. cbn [flat_map]. rewrite app_nil_r. unfold record_header, rec_bytes, e'. cbn [e_sec e_nsec e_incl e_orig e_off e_len]. rewrite Ei. unfold zlen. rewrite <- X1, <- X2, <- !app_assoc. do 4 f_equal. rewrite (get_firstn _ _ _ (Z.to_nat (Z.min (Z.of_nat len) (snaplen (m_d c)))) len) by lia. now rewrite X3.
    + intros k1 i W L F. destruct W as [W|W].
      * unfold hand in W. cbn [net] in W. destruct W as [<-|[]]. unfold kk in L, F |- *. cbn [k_n k_id k_full] in *. rewrite F. destruct Fr as [X|[_ Lt]]; [congruence|]. destruct (Nat.eq_dec i (k_n k)) as [->|Ni].
        -- destruct fill; [lia|]. rewrite (Me eq_refl). unfold e'. cbn [e_off e_len]. lia.
        -- rewrite Mk by (destruct fill; lia). assert (Wk : waiting st k) by (left; unfold hand; rewrite En; now left). pose proof (j_ent0 k i Wk ltac:(destruct fill; lia) Kf). nia.
      * exfalso. assert (X : g_last st = Some k1) by (apply j_full0; [|exact F]; destruct W as [W|W]; auto). congruence.
    + intros k1 i W L. destruct W as [W|W].
      * unfold hand in W. cbn [net] in W. destruct W as [<-|[]]. unfold kk in L |- *. cbn [k_n k_id] in *. destruct (Nat.eq_dec i (k_n k)) as [->|Ni].
        -- destruct fill; [lia|]. rewrite (Me eq_refl). unfold e'. cbn [e_off e_len]. nia.
        -- rewrite Mk by (destruct fill; lia). apply j_box0; [left; unfold hand; rewrite En; now left|destruct fill; lia].
      * rewrite Mo by exact W. apply j_box0; [now right|exact L].
    + unfold hand. cbn [net]. intros k1 [<-|[]]. unfold kk. cbn [k_full k_n]. destruct Fr as [F|[F Lt]]; rewrite F; destruct fill; lia.
    + unfold hand. cbn [net]. unfold kk. cbn [k_full]. destruct Fr as [F|[F Lt]]; rewrite F; auto.
    + intros l0 Hl. congruence.
    + destruct j_rem0 as [_ J]. destruct fill; [split; [lia|exact J]|]. split; [destruct (Z.eqb_spec (remaining st) no_limit); lia|]. destruct (Z.eqb_spec (count (m_d c)) no_limit); [rewrite J, Z.eqb_refl; reflexivity|]. destruct (Z.eqb_spec (remaining st) no_limit); [|lia]. pose proof (zlen_nonneg pol). lia.
    + rewrite j_rstop0, En. split; discriminate.
    + intros [X|X]; discriminate.
    + intros X. apply j_end0 in X as [X _]. congruence.
    + rewrite j_infl0. unfold nfront, ncpost, hand, notlast. cbn [net coll free g_last]. rewrite En, Kf. unfold kk. cbn [k_full]. destruct Fr as [F|[F Lt]]; rewrite F; lia.
  - (* push *) destruct (Nat.ltb_spec (length (ring st)) (n_chunks (m_d c))) as [Lr|]; [|discriminate]. injection H as <-.
    assert (Nl : g_last st = None) by (destruct (g_last st) as [l|] eqn:El; [|reflexivity]; destruct (j_last c st I l El) as (X & _); unfold hand in X; rewrite En in X; discriminate).
    pose proof (j_push c st I k En) as Kp. pose proof (ids_nodup c st I) as Nd. unfold handles, hand in Nd. rewrite En in Nd.
    assert (Ap : forall k', In k' (ring st ++ chand st ++ free st) -> k_id k <> k_id k') by (intros; eapply (ids_apart [k]); [exact Nd|now left|assumption]).
    rewrite Nl. set (gl := if k_full k then None else Some k). assert (Gl : forall l, gl = Some l -> l = k /\ k_full k = false) by (unfold gl; intros l X; destruct (k_full k); [discriminate|split; [congruence|reflexivity]]).
    assert (Nt : forall k', In k' (chand st ++ free st) -> match gl with Some l => negb (k_id l =? k_id k')%nat | None => true end = true).
    { intros k' Hk'. destruct gl as [l|] eqn:Eg; [|reflexivity]. destruct (Gl l eq_refl) as [-> _]. apply negb_true_iff, Nat.eqb_neq, Ap. apply in_or_app. now right. }
    assert (Ff : filter (fun _ : handle => true) (free st) = filter (fun k' => match gl with Some l => negb (k_id l =? k_id k')%nat | None => true end) (free st)).
    { assert (X : forall l, (forall k', In k' l -> In k' (free st)) -> filter (fun _ : handle => true) l = filter (fun k' => match gl with Some l => negb (k_id l =? k_id k')%nat | None => true end) l); [|now apply X]. induction l as [|a l IH]; intro Hs; [reflexivity|]. cbn [filter]. rewrite (Nt a) by (apply in_or_app; right; apply Hs; now left). f_equal. apply IH. intros; apply Hs; now right. }
    destruct I. constructor; cbn [net coll ring rstop free wqs used cq sto ent tstr infl remaining packets bytes errors wr g_recvd g_last]; auto; try discriminate.
    + eapply perm_ids; [|exact j_ids0]. unfold handles, hand. cbn [net ring chand coll free]. rewrite En. cbn [app]. rewrite <- app_assoc. cbn [app]. apply Permutation_middle.
    + rewrite j_slots0. unfold owned, front, hand, cpost, notlast. cbn [net coll free g_last tstr]. rewrite En, Nl. f_equal; [|f_equal].
      * unfold gl. destruct (k_full k); reflexivity.
      * now rewrite Ff.
      * destruct (coll st) eqn:Ec; try reflexivity. rewrite (Nt k0); [reflexivity|]. apply in_or_app. left. unfold chand. rewrite Ec. now left.
    + destruct j_data0 as (pol & pnd & E1 & E2 & E3 & E4 & E5). exists pol, pnd. repeat split; auto. rewrite <- E5. do 2 f_equal. unfold tocome, hand, reading. cbn [net coll ring sto ent]. rewrite En. rewrite flat_map_app. cbn [flat_map]. now rewrite !app_nil_r.
    + intros k1 i W. apply j_ent0. unfold waiting, hand in *. cbn [net ring coll] in W. rewrite En. destruct W as [[]|[W|W]]; [|auto]. apply in_app_or in W as [W|[W|[]]]; [auto|left; now left].
    + intros k1 i W. apply j_box0. unfold waiting, hand in *. cbn [net ring coll] in W. rewrite En. destruct W as [[]|[W|W]]; [|auto]. apply in_app_or in W as [W|[W|[]]]; [auto|left; now left].
    + intros k1 [].
    + unfold hand. cbn [net]. unfold gl. pose proof (j_kn0 k) as X. unfold hand in X, j_tstr0. rewrite En in X, j_tstr0. specialize (X (or_introl eq_refl)). destruct (k_full k); [exact j_tstr0|lia].
    + intros k1 X F. assert (k1 = k \/ (In k1 (ring st) \/ (exists i, coll st = CIov k1 i) \/ coll st = CPost k1)) as [->|X'] by (destruct X as [X|X]; [apply in_app_or in X as [X|[X|[]]]; auto|auto]).
      * unfold gl. now rewrite F.
      * specialize (j_full0 k1 X' F). congruence.
    + intros k1 X Y. apply j_free0; [exact X|]. unfold notlast. now rewrite Nl.
    + intros l Hl. destruct (Gl l Hl) as [-> Kff]. split; [reflexivity|]. split; [discriminate|]. split; [now apply Kp|apply in_or_app; left; apply in_or_app; right; now left].
    + rewrite j_rstop0, En. split; discriminate.
    + intros [X|X]; discriminate.
    + intros X. apply j_end0 in X as [X _]. congruence.
    + intros l Hl. now destruct (Gl l Hl) as [-> X].
    + rewrite j_infl0. unfold nfront, ncpost, hand, notlast. cbn [net coll free g_last]. rewrite En, Nl, Ff. f_equal; [f_equal; unfold gl; destruct (k_full k); reflexivity|]. destruct (coll st) eqn:Ec; try reflexivity. rewrite (Nt k0); [reflexivity|]. apply in_or_app. left. unfold chand. rewrite Ec. now left.
  - (* stop *) injection H as <-. destruct I. constructor; cbn [net coll ring rstop free wqs used cq sto ent tstr infl remaining packets bytes errors wr g_recvd g_last]; auto; try discriminate.
    + unfold handles, hand in *. cbn [net ring chand coll free] in *. rewrite En in j_ids0. exact j_ids0.
    + rewrite j_slots0. unfold owned, front, hand. cbn [net]. rewrite En. reflexivity.
    + destruct j_data0 as (pol & pnd & E1 & E2 & E3 & E4 & E5). exists pol, pnd. repeat split; auto. rewrite <- E5. unfold tocome, hand. cbn [net]. rewrite En. reflexivity.
    + intros k1 i W. apply j_ent0. unfold waiting, hand in *. rewrite En. exact W.
    + intros k1 i W. apply j_box0. unfold waiting, hand in *. rewrite En. exact W.
    + intros k1 [].
    + unfold hand in *. cbn [net]. rewrite En in j_tstr0. exact j_tstr0.
    + intros l Hl. destruct (j_last0 l Hl) as (_ & _ & X). split; [reflexivity|]. split; [discriminate|exact X].
    + split; reflexivity.
    + intros X. apply j_end0 in X as [X _]. congruence.
    + rewrite j_infl0. unfold nfront, hand. cbn [net]. rewrite En. reflexivity.
Qed.
Lemma dinv_wr c st w' : dinv c st -> winv (d_w (m_d c)) w' -> w_all w' = w_all (wr st) -> (w_stop (wr st) = true -> w_stop w' = true) -> (coll st <> COver -> early (w_pc w')) -> (endpc (wr st) -> endpc w') -> dinv c (set_coll st (coll st) w').
Proof.
  intros I W A S' E P. destruct I. constructor; unfold set_coll; cbn [net coll ring rstop free wqs used cq sto ent tstr infl remaining packets bytes errors wr g_recvd g_last]; auto.
  - rewrite A. exact j_data0.
  - intros k H F. destruct (j_push0 k H F); tauto.
  - intros l H. destruct (j_last0 l H) as (H1 & H2 & H3 & H4). repeat split; auto. tauto.
  - intros H. apply j_ended0 in H. tauto.
Qed.
Lemma pend_step s m k i : (i < 2 * k_n k)%nat -> pend s m k i = iov s m (k_id k) i ++ pend s m k (S i).
Proof. intro H. unfold pend. replace (2 * k_n k - i)%nat with (S (2 * k_n k - S i)) by lia. reflexivity. Qed.
Lemma pend_nil s m k i : (2 * k_n k <= i)%nat -> pend s m k i = [].
Proof. intro H. unfold pend. now replace (2 * k_n k - i)%nat with 0%nat by lia. Qed.

Lemma dinv_coll c st st' : mconf_ok c -> dinv c st -> coll_step c st = Some st' -> dinv c st'.
Proof.
  intros C I H. pose proof C as ((Wc & _) & _). unfold coll_step in H. destruct (w_pc (wr st)) eqn:Ep.
  2-10: destruct (wstep (d_w (m_d c)) (wr st)) as [w'|] eqn:Ew; [|discriminate]; injection H as <-; destruct (wstep_frame _ _ _ Ew) as (F1 & F2 & F3 & F4); apply dinv_wr; auto; [destruct Wc as (? & ? & ?); eapply winv_step; eauto using j_w|intro N; apply F3, (j_early c st I N)].
  destruct (coll st) as [| |k i|k|k| |] eqn:Ec; try discriminate.
  - (* header *) destruct (wcall (wr st) (file_header (m_d c))) as [w'|] eqn:Ew; [|discriminate]. injection H as <-. pose proof (winv_call _ _ _ _ (j_w c st I) Ew) as W. unfold wcall in Ew. rewrite Ep in Ew. injection Ew as <-.
    destruct I. constructor; unfold set_coll; cbn [net coll ring rstop free wqs used cq sto ent tstr infl remaining packets bytes errors wr g_recvd g_last w_all w_stop]; auto; try discriminate.
    + unfold handles, chand in *. cbn [net ring coll free]. rewrite Ec in j_ids0. exact j_ids0.
    + rewrite j_slots0. unfold owned, cpost. cbn [coll]. rewrite Ec. reflexivity.
    + destruct j_data0 as (pol & pnd & E1 & E2 & E3 & E4 & E5). exists pol, pnd. repeat split; auto. rewrite Ec in E5. rewrite <- E5, <- app_assoc. unfold tocome, reading. cbn [coll]. rewrite Ec. reflexivity.
    + intros k1 i1 W1. apply j_ent0. unfold waiting, hand in *. cbn [net ring coll] in W1. destruct W1 as [W1|[W1|(j & W1)]]; [auto|auto|discriminate].
    + intros k1 i1 W1. apply j_box0. unfold waiting, hand in *. cbn [net ring coll] in W1. destruct W1 as [W1|[W1|(j & W1)]]; [auto|auto|discriminate].
    + intros k [X|[(i & X)|X]]; try discriminate. apply j_full0. now left.
    + intros k [X|X]; [|discriminate]. apply j_free0. now left.
    + intros l Hl. destruct (j_last0 l Hl) as (H1 & H2 & H3 & H4). repeat split; auto. unfold chand in *. cbn [coll]. rewrite Ec in H4. exact H4.
    + intros [X|X]; discriminate.
    + rewrite j_infl0. unfold nfront, ncpost, hand, notlast. cbn [net coll free g_last]. rewrite Ec. reflexivity.
    + intros _. exact Logic.I.
  - (* next chunk *) destruct (ring st) as [|k r] eqn:Er.
    + destruct (rstop st) eqn:Es; [|discriminate]. injection H as <-. destruct I. constructor; unfold set_coll; cbn [net coll ring rstop free wqs used cq sto ent tstr infl remaining packets bytes errors wr g_recvd g_last w_all w_stop]; auto; try discriminate.
      * unfold handles, chand in *. cbn [net ring coll free]. rewrite Ec in j_ids0. exact j_ids0.
      * rewrite j_slots0. unfold owned, cpost. cbn [coll]. rewrite Ec. reflexivity.
      * destruct j_data0 as (pol & pnd & E1 & E2 & E3 & E4 & E5). exists pol, pnd. repeat split; auto. rewrite Ec in E5. rewrite <- E5. unfold tocome, reading. cbn [coll]. rewrite Ec. reflexivity.
      * intros k1 i1 W1. apply j_ent0. unfold waiting, hand in *. cbn [net ring coll] in W1. destruct W1 as [W1|[W1|(j & W1)]]; [auto|auto|discriminate].
      * intros k1 i1 W1. apply j_box0. unfold waiting, hand in *. cbn [net ring coll] in W1. destruct W1 as [W1|[W1|(j & W1)]]; [auto|auto|discriminate].
      * intros k [X|[(i & X)|X]]; try discriminate. apply j_full0. now left.
      * intros k [X|X]; [|discriminate]. apply j_free0. now left.
      * intros l Hl. destruct (j_last0 l Hl) as (H1 & H2 & H3 & H4). repeat split; auto. unfold chand in *. cbn [coll]. rewrite Ec in H4. exact H4.
      * intros _. split; [now apply j_rstop0|exact Er].
      * rewrite j_infl0. unfold nfront, ncpost, hand, notlast. cbn [net coll free g_last]. rewrite Ec. reflexivity.
      * intros _. rewrite Ep. exact Logic.I.
    + injection H as <-. destruct I. constructor; cbn [net coll ring rstop free wqs used cq sto ent tstr infl remaining packets bytes errors wr g_recvd g_last w_all w_stop]; auto; try discriminate.
      * eapply perm_ids; [|exact j_ids0]. unfold handles, chand, hand. cbn [net ring coll free]. rewrite Ec, Er. apply Permutation_app_head. cbn [app]. apply Permutation_middle.
      * rewrite j_slots0. unfold owned, cpost. cbn [coll]. rewrite Ec. reflexivity.
      * destruct j_data0 as (pol & pnd & E1 & E2 & E3 & E4 & E5). exists pol, pnd. repeat split; auto. rewrite Ec in E5. rewrite <- E5. unfold tocome, reading, hand. cbn [coll ring sto ent net]. rewrite Ec, Er. cbn [flat_map fst snd app]. rewrite app_nil_r, <- !app_assoc. reflexivity.
      * intros k1 i1 W1. apply j_ent0. unfold waiting, hand in *. cbn [net ring coll] in W1. destruct W1 as [W1|[W1|(j & W1)]]; [auto|right; left; rewrite Er; now right|]. injection W1 as <- <-. right. left. rewrite Er. now left.
      * intros k1 i1 W1. apply j_box0. unfold waiting, hand in *. cbn [net ring coll] in W1. destruct W1 as [W1|[W1|(j & W1)]]; [auto|right; left; rewrite Er; now right|]. injection W1 as <- <-. right. left. rewrite Er. now left.
      * intros k1 X. apply j_full0. left. rewrite Er. destruct X as [X|[(i & X)|X]]; [now right| |discriminate]. injection X as <- <-. now left.
      * intros k1 [X|X]; [|discriminate]. apply j_free0. now left.
      * intros l Hl. destruct (j_last0 l Hl) as (H1 & H2 & H3 & H4). repeat split; auto. unfold chand in *. cbn [coll]. rewrite Ec, Er in H4. rewrite in_app_iff in *. cbn [app In] in *. tauto.
      * intros [X|X]; discriminate.
      * rewrite j_infl0. unfold nfront, ncpost, hand, notlast. cbn [net coll free g_last]. rewrite Ec. reflexivity.
      * intros _. rewrite Ep. exact Logic.I.
  - (* iovecs *) destruct (Nat.ltb_spec i (2 * k_n k)) as [Li|Li].
    + destruct (wcall (wr st) (iov (sto st) (ent st) (k_id k) i)) as [w'|] eqn:Ew; [|discriminate]. injection H as <-. pose proof (winv_call _ _ _ _ (j_w c st I) Ew) as W. unfold wcall in Ew. rewrite Ep in Ew. injection Ew as <-.
      destruct I. constructor; unfold set_coll; cbn [net coll ring rstop free wqs used cq sto ent tstr infl remaining packets bytes errors wr g_recvd g_last w_all w_stop]; auto; try discriminate.
      * unfold handles, chand in *. cbn [net ring coll free]. rewrite Ec in j_ids0. exact j_ids0.
      * rewrite j_slots0. unfold owned, cpost. cbn [coll]. rewrite Ec. reflexivity.
      * destruct j_data0 as (pol & pnd & E1 & E2 & E3 & E4 & E5). exists pol, pnd. repeat split; auto. rewrite Ec in E5. rewrite <- E5. unfold tocome, reading, hand. cbn [coll ring sto ent net]. rewrite Ec. cbn [flat_map fst snd app]. rewrite (pend_step _ _ _ _ Li), !app_nil_r, <- !app_assoc. reflexivity.
      * intros k1 i1 W1. apply j_ent0. unfold waiting, hand in *. cbn [net ring coll] in W1. destruct W1 as [W1|[W1|(j & W1)]]; [auto|auto|]. injection W1 as <- <-. right. right. now exists i.
      * intros k1 i1 W1. apply j_box0. unfold waiting, hand in *. cbn [net ring coll] in W1. destruct W1 as [W1|[W1|(j & W1)]]; [auto|auto|]. injection W1 as <- <-. right. right. now exists i.
      * intros k1 X. apply j_full0. destruct X as [X|[(j & X)|X]]; [now left| |discriminate]. injection X as <- <-. right. left. now exists i.
      * intros k1 [X|X]; [|discriminate]. apply j_free0. now left.
      * intros l Hl. destruct (j_last0 l Hl) as (H1 & H2 & H3 & H4). repeat split; auto. unfold chand in *. cbn [coll]. rewrite Ec in H4. exact H4.
      * intros [X|X]; discriminate.
      * rewrite j_infl0. unfold nfront, ncpost, hand, notlast. cbn [net coll free g_last]. rewrite Ec. reflexivity.
      * intros _. exact Logic.I.
    + injection H as <-. destruct I. constructor; unfold set_coll; cbn [net coll ring rstop free wqs used cq sto ent tstr infl remaining packets bytes errors wr g_recvd g_last w_all w_stop]; auto; try discriminate.
      * unfold handles, chand in *. cbn [net ring coll free]. rewrite Ec in j_ids0. exact j_ids0.
      * rewrite j_slots0. unfold owned, cpost. cbn [coll]. rewrite Ec. reflexivity.
      * destruct j_data0 as (pol & pnd & E1 & E2 & E3 & E4 & E5). exists pol, pnd. repeat split; auto. rewrite Ec in E5. rewrite <- E5. unfold tocome, reading, hand. cbn [coll ring sto ent net]. rewrite Ec. cbn [flat_map fst snd app]. rewrite (pend_nil _ _ _ _ Li). reflexivity.
      * intros k1 i1 W1. apply j_ent0. unfold waiting, hand in *. cbn [net ring coll] in W1. destruct W1 as [W1|[W1|(j & W1)]]; [auto|auto|discriminate].
      * intros k1 i1 W1. apply j_box0. unfold waiting, hand in *. cbn [net ring coll] in W1. destruct W1 as [W1|[W1|(j & W1)]]; [auto|auto|discriminate].
      * intros k1 X. apply j_full0. destruct X as [X|[(j & X)|X]]; [now left|discriminate|]. injection X as <-. right. left. now exists i.
      * intros k1 [X|X]; [|discriminate]. apply j_free0. now left.
      * intros l Hl. destruct (j_last0 l Hl) as (H1 & H2 & H3 & H4). repeat split; auto. unfold chand in *. cbn [coll]. rewrite Ec in H4. exact H4.
      * intros [X|X]; discriminate.
      * rewrite j_infl0. unfold nfront, ncpost, hand, notlast. cbn [net coll free g_last]. rewrite Ec. reflexivity.
      * intros _. rewrite Ep. exact Logic.I.
  - (* chunk_done *) pose proof (j_full c st I k (or_intror (or_intror Ec))) as Kf. destruct (k_full k) eqn:Ek.
    + destruct (Nat.ltb_spec (infl st) (n_chunks (m_d c))) as [Li|]; [|discriminate]. injection H as <-. assert (Nl : notlast st k = true).
      { unfold notlast. destruct (g_last st) as [l|] eqn:El; [|reflexivity]. apply negb_true_iff, Nat.eqb_neq. intro E. destruct (j_last c st I l El) as (_ & _ & _ & Il). assert (l = k) as ->. { eapply ids_inj; [exact (ids_nodup c st I)| | |exact E]; unfold handles; apply in_or_app; right; [exact Il|]. rewrite !in_app_iff. right. left. unfold chand. rewrite Ec. now left. } pose proof (j_lfull c st I k El). congruence. }
      destruct I. constructor; cbn [net coll ring rstop free wqs used cq sto ent tstr infl remaining packets bytes errors wr g_recvd g_last w_all w_stop]; auto; try discriminate.
      * unfold handles, chand, hand in *. cbn [net ring coll free]. rewrite Ec in j_ids0. rewrite !map_app in *. exact j_ids0.
      * rewrite pslots_snoc by apply j_used0. rewrite app_assoc, j_slots0. unfold owned, cpost. cbn [coll k_id]. rewrite Ec. unfold front, hand, notlast in *. cbn [net g_last free k_id]. rewrite Nl. rewrite app_nil_r, <- app_assoc. reflexivity.
      * destruct j_used0 as [J1 _]. split; [exact J1|]. intro X. destruct (wqs st); discriminate.
      * destruct j_data0 as (pol & pnd & E1 & E2 & E3 & E4 & E5). exists pol, pnd. repeat split; auto. rewrite Ec in E5. rewrite <- E5. unfold tocome, reading, hand. cbn [coll ring sto ent net]. rewrite Ec. reflexivity.
      * intros k1 i1 W1. apply j_ent0. unfold waiting, hand in *. cbn [net ring coll] in W1. destruct W1 as [W1|[W1|(j & W1)]]; [auto|auto|discriminate].
      * intros k1 i1 W1. apply j_box0. unfold waiting, hand in *. cbn [net ring coll] in W1. destruct W1 as [W1|[W1|(j & W1)]]; [auto|auto|discriminate].
      * intros k1 X. apply j_full0. destruct X as [X|[(j & X)|X]]; [now left|discriminate|discriminate].
      * intros k1 [X|X]; [apply j_free0; now left|]. injection X as <-. split; reflexivity.
      * intros l Hl. destruct (j_last0 l Hl) as (H1 & H2 & H3 & H4). repeat split; auto. unfold chand in *. cbn [coll]. rewrite Ec in H4. rewrite !in_app_iff in *. destruct H4 as [H4|[[H4|[]]|H4]]; auto. subst l. unfold notlast in Nl. rewrite Hl, Nat.eqb_refl in Nl. discriminate.
      * intros [X|X]; discriminate.
      * rewrite j_infl0. unfold nfront, ncpost, hand, notlast in *. cbn [net coll free g_last k_id]. rewrite Ec, Nl. lia.
      * intros _. rewrite Ep. exact Logic.I.
    + specialize (Kf eq_refl). injection H as <-. assert (Nl : notlast st k = false) by (unfold notlast; rewrite Kf, Nat.eqb_refl; reflexivity).
      destruct I. constructor; unfold set_coll; cbn [net coll ring rstop free wqs used cq sto ent tstr infl remaining packets bytes errors wr g_recvd g_last w_all w_stop]; auto; try discriminate.
      * unfold handles, chand in *. cbn [net ring coll free]. rewrite Ec in j_ids0. exact j_ids0.
      * rewrite j_slots0. unfold owned, cpost. cbn [coll k_id]. rewrite Ec. unfold front, hand, notlast in *. cbn [net g_last free k_id]. rewrite Nl. reflexivity.
      * destruct j_data0 as (pol & pnd & E1 & E2 & E3 & E4 & E5). exists pol, pnd. repeat split; auto. rewrite Ec in E5. rewrite <- E5. unfold tocome, reading, hand. cbn [coll ring sto ent net]. rewrite Ec. reflexivity.
      * intros k1 i1 W1. apply j_ent0. unfold waiting, hand in *. cbn [net ring coll] in W1. destruct W1 as [W1|[W1|(j & W1)]]; [auto|auto|discriminate].
      * intros k1 i1 W1. apply j_box0. unfold waiting, hand in *. cbn [net ring coll] in W1. destruct W1 as [W1|[W1|(j & W1)]]; [auto|auto|discriminate].
      * intros k1 X. apply j_full0. destruct X as [X|[(j & X)|X]]; [now left|discriminate|discriminate].
      * intros k1 [X|X]; [apply j_free0; now left|]. injection X as <-. unfold notlast in *. cbn [g_last]. congruence.
      * intros l Hl. destruct (j_last0 l Hl) as (H1 & H2 & H3 & H4). repeat split; auto. unfold chand in *. cbn [coll]. rewrite Ec in H4. exact H4.
      * intros [X|X]; discriminate.
      * rewrite j_infl0. unfold nfront, ncpost, hand, notlast in *. cbn [net coll free g_last k_id]. rewrite Ec, Nl. lia.
      * intros _. rewrite Ep. exact Logic.I.
  - (* back into the free ring *) destruct (Nat.ltb_spec (length (free st)) (n_chunks (m_d c))) as [Lf|]; [|discriminate]. injection H as <-.
    destruct I. constructor; cbn [net coll ring rstop free wqs used cq sto ent tstr infl remaining packets bytes errors wr g_recvd g_last w_all w_stop]; auto; try discriminate.
    + eapply perm_ids; [|exact j_ids0]. unfold handles, chand, hand. cbn [net ring coll free]. rewrite Ec. apply Permutation_app_head, Permutation_app_head. cbn [app]. apply Permutation_cons_append.
    + rewrite j_slots0. unfold owned, cpost, front, hand, notlast. cbn [coll net g_last free]. rewrite Ec. rewrite filter_app, flat_map_app. cbn [filter]. destruct (match g_last st with Some l => negb (k_id l =? k_id k)%nat | None => true end); cbn [flat_map]; rewrite ?app_nil_r; reflexivity.
    + destruct j_data0 as (pol & pnd & E1 & E2 & E3 & E4 & E5). exists pol, pnd. repeat split; auto. rewrite Ec in E5. rewrite <- E5. unfold tocome, reading, hand. cbn [coll ring sto ent net]. rewrite Ec. reflexivity.
    + intros k1 i1 W1. apply j_ent0. unfold waiting, hand in *. cbn [net ring coll] in W1. destruct W1 as [W1|[W1|(j & W1)]]; [auto|auto|discriminate].
    + intros k1 i1 W1. apply j_box0. unfold waiting, hand in *. cbn [net ring coll] in W1. destruct W1 as [W1|[W1|(j & W1)]]; [auto|auto|discriminate].
    + intros k1 X. apply j_full0. destruct X as [X|[(j & X)|X]]; [now left|discriminate|discriminate].
    + intros k1 [X|X]; [|discriminate]. apply in_app_or in X as [X|[<-|[]]]; apply j_free0; auto.
    + intros l Hl. destruct (j_last0 l Hl) as (H1 & H2 & H3 & H4). repeat split; auto. unfold chand in *. cbn [coll]. rewrite Ec in H4. rewrite !in_app_iff in *. cbn [In] in *. tauto.
    + intros [X|X]; discriminate.
    + rewrite j_infl0. unfold nfront, ncpost, hand, notlast. cbn [net coll free g_last]. rewrite Ec, filter_app, app_length. cbn [filter]. destruct (match g_last st with Some l => negb (k_id l =? k_id k)%nat | None => true end); cbn [length]; lia.
    + intros _. rewrite Ep. exact Logic.I.
  - (* close *) destruct (wclose (wr st)) as [w'|] eqn:Ew; [|discriminate]. injection H as <-. pose proof (winv_close _ _ _ (j_w c st I) Ew) as W. unfold wclose in Ew. rewrite Ep in Ew. destruct (w_cur (wr st)) as [b|]; [|discriminate]. injection Ew as <-.
    destruct I. constructor; unfold set_coll; cbn [net coll ring rstop free wqs used cq sto ent tstr infl remaining packets bytes errors wr g_recvd g_last set_pc w_all w_stop]; auto; try discriminate.
    + unfold handles, chand in *. cbn [net ring coll free]. rewrite Ec in j_ids0. exact j_ids0.
    + rewrite j_slots0. unfold owned, cpost. cbn [coll]. rewrite Ec. reflexivity.
    + destruct j_data0 as (pol & pnd & E1 & E2 & E3 & E4 & E5). exists pol, pnd. repeat split; auto. rewrite Ec in E5. rewrite <- E5. unfold tocome, reading, hand. cbn [coll ring sto ent net]. rewrite Ec. reflexivity.
    + intros k1 i1 W1. apply j_ent0. unfold waiting, hand in *. cbn [net ring coll] in W1. destruct W1 as [W1|[W1|(j & W1)]]; [auto|auto|discriminate].
    + intros k1 i1 W1. apply j_box0. unfold waiting, hand in *. cbn [net ring coll] in W1. destruct W1 as [W1|[W1|(j & W1)]]; [auto|auto|discriminate].
    + intros k1 X. apply j_full0. destruct X as [X|[(j & X)|X]]; [now left|discriminate|discriminate].
    + intros k1 [X|X]; [|discriminate]. apply j_free0. now left.
    + intros l Hl. destruct (j_last0 l Hl) as (H1 & H2 & H3 & H4). repeat split; auto. unfold chand in *. cbn [coll]. rewrite Ec in H4. exact H4.
    + rewrite j_infl0. unfold nfront, ncpost, hand, notlast. cbn [net coll free g_last]. rewrite Ec. reflexivity.
    + intros _. unfold endpc. cbn [w_pc]. destruct (0 <? b_len b)%nat; exact Logic.I.
    + intros N. congruence.
Qed.


(** There is room in the queue when a chunk is posted *)
Lemma filter_lt {A} (f : A -> bool) l x : In x l -> f x = false -> (length (filter f l) < length l)%nat.
Proof. assert (Le : forall l, (length (filter f l) <= length l)%nat) by (induction l0 as [|a l0 IH]; [auto|]; cbn [filter length]; destruct (f a); cbn [length]; lia). induction l as [|a l IH]; intros H F; [destruct H|]. cbn [filter length]. destruct H as [->|H]; [rewrite F; specialize (Le l); lia|]. specialize (IH H F). destruct (f a); cbn [length]; lia. Qed.
Lemma filter_le {A} (f : A -> bool) l : (length (filter f l) <= length l)%nat.
Proof. induction l as [|a l IH]; [auto|]. cbn [filter length]. destruct (f a); cbn [length]; lia. Qed.
Lemma infl_room c st k : dinv c st -> coll st = CPost k -> k_full k = true -> (infl st < n_chunks (m_d c))%nat.
Proof.
  intros I Ec F. pose proof (Permutation_length (j_ids c st I)) as Ln. rewrite map_length, seq_length in Ln. unfold handles in Ln. rewrite !app_length in Ln. unfold chand in Ln. rewrite Ec in Ln. cbn [length] in Ln.
  rewrite (j_infl c st I). unfold ncpost. rewrite Ec. pose proof (filter_le (notlast st) (free st)) as Fl. unfold nfront. destruct (hand st) as [|k0 [|? ?]] eqn:Eh; [| |unfold hand in Eh; destruct (net st); discriminate].
  - destruct (g_last st) as [l|] eqn:El; [|cbn [length] in Ln; lia]. destruct (j_last c st I l El) as (_ & _ & _ & Il). unfold chand in Il. rewrite Ec in Il. rewrite !in_app_iff in Il. destruct Il as [Il|[[->|[]]|Il]].
    + destruct (ring st); [destruct Il|]. cbn [length] in *. lia.
    + pose proof (j_lfull c st I l El). congruence.
    + assert (notlast st l = false) as N by (unfold notlast; rewrite El, Nat.eqb_refl; reflexivity). pose proof (filter_lt _ _ _ Il N). cbn [length] in *. lia.
  - cbn [length] in *. destruct (k_full k0); lia.
Qed.

Lemma dinv_label c st l st' : mconf_ok c -> dinv c st -> label_ok l -> dlstep c st l = Some st' -> dinv c st'.
Proof.
  intros C I L H. destruct l as [pkt ns| | | |got| |i a]; cbn [dlstep] in H.
  - eapply dinv_recv; eauto.
  - eapply dinv_fill; eauto.
  - destruct L.
  - injection H as <-. apply dinv_wr; auto using raise_inv, (j_w c st I). exact (j_early c st I).
  - eapply dinv_net; eauto.
  - eapply dinv_coll; eauto.
  - destruct (dstep (d_w (m_d c)) (wr st) i a) as [w'|] eqn:E; [|discriminate]. injection H as <-. destruct (dstep_frame _ _ _ _ _ E) as (F1 & F2 & F3 & F4). apply dinv_wr; auto; [|rewrite F3; exact (j_early c st I)]. destruct C as (((? & ? & ?) & _) & _). eapply winv_disk; eauto using j_w.
Qed.
Lemma recvd_label c st l st' : dlstep c st l = Some st' -> g_recvd st' = g_recvd st ++ received [l].
Proof.
  intro H. destruct l as [pkt ns| | | |got| |i a]; cbn [dlstep received flat_map app] in *; rewrite ?app_nil_r.
  - unfold hw_recv in H. destruct (wqs st) as [|id w]; [discriminate|]. destruct (_ && _); [|discriminate]. destruct (advance _ _ _). now injection H as <-.
  - unfold hw_fill in H. destruct (wqs st) as [|id w]; [discriminate|]. destruct (_ <? _)%nat; [|discriminate]. now injection H as <-.
  - unfold hw_fail in H. destruct (wqs st) as [|id w]; [discriminate|]. now injection H as <-.
  - now injection H as <-.
  - unfold net_step in H. destruct (net st) as [| |k|k|k| |]; try discriminate; try now injection H as <-.
    + destruct (free st); [discriminate|]. now injection H as <-.
    + destruct got; [|now injection H as <-]. destruct (cq st) as [|cp q]; [discriminate|]. destruct (cp_ok cp); [|now injection H as <-]. destruct (read_wc _ _ _) as [[[[? ?] ?] ?] ?]. now injection H as <-.
    + destruct (_ <? _)%nat; [|discriminate]. now injection H as <-.
  - unfold coll_step in H. destruct (w_pc (wr st)); try (destruct (wstep (d_w (m_d c)) (wr st)); [|discriminate]; now injection H as <-). destruct (coll st) as [| |k i|k|k| |]; try discriminate.
    + destruct (wcall _ _); [|discriminate]. now injection H as <-.
    + destruct (ring st); [destruct (rstop st); [|discriminate]|]; now injection H as <-.
    + destruct (_ <? _)%nat; [destruct (wcall _ _); [|discriminate]|]; now injection H as <-.
    + destruct (k_full k); [destruct (_ <? _)%nat; [|discriminate]|]; now injection H as <-.
    + destruct (_ <? _)%nat; [|discriminate]. now injection H as <-.
    + destruct (wclose _); [|discriminate]. now injection H as <-.
  - destruct (dstep _ _ _ _); [|discriminate]. now injection H as <-.
Qed.
Lemma drun_app c st l1 l2 : drun c st (l1 ++ l2) = match drun c st l1 with Some st' => drun c st' l2 | None => None end.
Proof. revert st. induction l1 as [|l l1 IH]; intro st; [reflexivity|]. cbn [app drun]. destruct (dlstep c st l); auto. Qed.
Lemma dinv_run c s e wm ls st : mconf_ok c -> Forall label_ok ls -> drun c (dinit c s e wm) ls = Some st -> dinv c st /\ g_recvd st = received ls.
Proof.
  intro C. revert st. induction ls as [|l ls IH] using rev_ind; intros st L H.
  - injection H as <-. split; [now apply dinv_init|reflexivity].
  - rewrite drun_app in H. destruct (drun c (dinit c s e wm) ls) as [st1|] eqn:E; [|discriminate]. apply Forall_app in L as [L1 L2]. inversion_clear L2. destruct (IH st1 L1 eq_refl) as [I R]. cbn [drun] in H. destruct (dlstep c st1 l) as [st2|] eqn:E2; [|discriminate]. injection H as <-. split; [eapply dinv_label; eauto|]. rewrite (recvd_label _ _ _ _ E2), R. unfold received. now rewrite flat_map_app.
Qed.
