(** C69: mcdump writes what it receives. *)
From Coq Require Import ZArith List Bool Arith Lia Permutation.
From Verif Require Import Base ConcBase DumpWModel DumpWProofs DumpModel DumpSpec DumpProofs.
Import ListNotations.
Open Scope Z_scope.

Lemma read_le_app n z r : 0 <= z < 256 ^ Z.of_nat n -> read_le n (le n z ++ r) = Some (z, r).
Proof.
  revert z. induction n as [|n IH]; intros z Hz; [cbn in *; do 2 f_equal; lia|]. unfold le in *. cbn [be_encode]. rewrite rev_app_distr. cbn [rev app read_le]. rewrite IH.
  - do 2 f_equal. pose proof (Z.div_mod z 256 ltac:(lia)). lia.
  - rewrite Nat2Z.inj_succ, Z.pow_succ_r in Hz by lia. split; [apply Z.div_pos; lia|apply Z.div_lt_upper_bound; lia].
Qed.
Lemma parse_rec c x r snap fuel : 0 <= snap < 2 ^ 32 -> zlen (fst x) <= snap -> 0 <= snd x < 2 ^ 32 * 10 ^ 9 ->
  parse_records (S fuel) snap (rec_bytes c x ++ r) = match parse_records fuel snap r with Some l => Some (capture (stamps c) x :: l) | None => None end.
Proof.
  intros Hs Hl Hn. pose proof (zlen_nonneg (fst x)) as P. unfold rec_bytes. rewrite <- !app_assoc.
  assert (E : parse_records (S fuel) snap (le 4 (if stamps c then snd x / 10 ^ 9 else 0) ++ le 4 (if stamps c then snd x mod 10 ^ 9 else 0) ++ le 4 (Z.of_nat (length (fst x))) ++ le 4 (Z.of_nat (length (fst x))) ++ fst x ++ r) =
    match read_le 4 (le 4 (if stamps c then snd x / 10 ^ 9 else 0) ++ le 4 (if stamps c then snd x mod 10 ^ 9 else 0) ++ le 4 (Z.of_nat (length (fst x))) ++ le 4 (Z.of_nat (length (fst x))) ++ fst x ++ r) with Some (sec, l) =>
      match read_le 4 l with Some (nsec, l) =>
      match read_le 4 l with Some (incl, l) =>
      match read_le 4 l with Some (orig, l) =>
        if (incl <=? snap) && (incl <=? zlen l) then
          match parse_records fuel snap (skipn (Z.to_nat incl) l) with
          | Some r => Some ({| c_sec := sec; c_nsec := nsec; c_orig := orig; c_data := firstn (Z.to_nat incl) l |} :: r)
          | None => None
          end
        else None
      | None => None end | None => None end | None => None end | None => None end).
  { destruct (le 4 (if stamps c then snd x / 10 ^ 9 else 0)) eqn:El; [|reflexivity]. exfalso. apply (f_equal (@length Z)) in El. unfold le in El. rewrite rev_length, be_encode_length in El. discriminate. }
  rewrite E. clear E. change (2 ^ 32) with (256 ^ Z.of_nat 4) in *. unfold zlen in Hl, P.
  assert (D : 0 <= snd x / 10 ^ 9 < 256 ^ Z.of_nat 4) by (split; [apply Z.div_pos; lia|apply Z.div_lt_upper_bound; lia]).
  assert (M : 0 <= snd x mod 10 ^ 9 < 256 ^ Z.of_nat 4) by (pose proof (Z.mod_pos_bound (snd x) (10 ^ 9) ltac:(lia)); change (256 ^ Z.of_nat 4) with 4294967296 in *; change (10 ^ 9) with 1000000000 in *; lia).
  rewrite read_le_app by (destruct (stamps c); lia). rewrite read_le_app by (destruct (stamps c); lia). rewrite read_le_app by lia. rewrite read_le_app by lia.
  replace (Z.of_nat (length (fst x)) <=? snap) with true by (symmetry; apply Z.leb_le; lia). replace (Z.of_nat (length (fst x)) <=? zlen (fst x ++ r)) with true by (symmetry; apply Z.leb_le; unfold zlen; rewrite app_length; lia). cbn [andb].
  rewrite Nat2Z.id, firstn_app, Nat.sub_diag, firstn_all, skipn_app, Nat.sub_diag, skipn_all. cbn [firstn skipn app]. rewrite app_nil_r. reflexivity.
Qed.
Lemma parse_all c l snap : 0 <= snap < 2 ^ 32 -> Forall (fun x => zlen (fst x) <= snap /\ 0 <= snd x < 2 ^ 32 * 10 ^ 9) l -> forall fuel, (length (flat_map (rec_bytes c) l) <= fuel)%nat ->
  parse_records fuel snap (flat_map (rec_bytes c) l) = Some (map (capture (stamps c)) l).
Proof.
  intros Hs. induction 1 as [|x l [H1 H2] _ IH]; intros fuel Hf; [now destruct fuel|]. cbn [flat_map map] in *. rewrite app_length in Hf. assert (16 <= length (rec_bytes c x))%nat by (unfold rec_bytes, le; rewrite !app_length, !rev_length, !be_encode_length; lia). destruct fuel as [|fuel]; [lia|]. rewrite parse_rec by assumption. rewrite IH by lia. reflexivity.
Qed.
Lemma parse_file c l : 0 <= snaplen c < 2 ^ 32 -> Forall (fun x => zlen (fst x) <= snaplen c /\ 0 <= snd x < 2 ^ 32 * 10 ^ 9) l ->
  parse_pcap (file_header c ++ flat_map (rec_bytes c) l) = Some (snaplen c, map (capture (stamps c)) l).
Proof.
  intros Hs H. unfold parse_pcap, file_header. rewrite <- !app_assoc. rewrite read_le_app by (cbn; lia). rewrite read_le_app by (cbn; lia). rewrite read_le_app by (cbn; lia). rewrite read_le_app by (cbn; lia). rewrite read_le_app by (cbn; lia). rewrite read_le_app by exact Hs. rewrite read_le_app by (cbn; lia). cbn [Z.eqb Pos.eqb andb].
  rewrite parse_all; auto.
Qed.

(** When the file is closed, it is a pcap file with the packets that were received, from
    the first on, in order, whole, with their times; the counters that are reported agree.
    Anything may happen in the meantime but failing receives. *)
Theorem C69_file c m wm ls st : dconf_ok c -> Forall label_ok ls -> drun c (dinit c m wm) ls = Some st -> w_pc (wr st) = WClosed ->
  exists n, (n <= length (received ls))%nat /\ packets st = Z.of_nat n /\ bytes st = fold_right (fun x z => zlen (fst x) + z) 0 (firstn n (received ls)) /\ errors st = 0 /\
  parse_pcap (content (w_file (wr st))) = Some (snaplen c, map (capture (stamps c)) (firstn n (received ls))).
Proof.
  intros C L H W. destruct (dinv_run c m wm ls st C L H) as [I R]. destruct (j_data c st I) as (pol & pnd & E1 & E2 & E3 & _ & E5). exists (length pol). rewrite <- R, E1, firstn_app, Nat.sub_diag, firstn_all. cbn [firstn]. rewrite app_nil_r.
  assert (Co : coll st = COver) by (destruct (coll st) eqn:Ec; [exfalso; assert (X : coll st <> COver) by congruence; apply (j_early c st I) in X; rewrite W in X; exact X..|reflexivity]).
  destruct (j_end c st I (or_intror Co)) as [Nd Rg]. split; [rewrite app_length; lia|]. split; [exact E2|]. split; [exact E3|]. split; [exact (j_err c st I)|].
  rewrite (i_closed _ _ (j_w c st I) W). unfold tocome, reading, hand in E5. rewrite Co, Nd, Rg in E5. cbn [flat_map app] in E5. rewrite app_nil_r in E5. rewrite E5. apply parse_file; [apply C|].
  assert (Lp : Forall (fun x => zlen (fst x) <= snaplen c) pol) by (pose proof (j_len c st I) as X; rewrite E1 in X; apply Forall_app in X; apply X).
  assert (Lt : Forall (fun x => 0 <= snd x < 2 ^ 32 * 10 ^ 9) pol).
  { assert (X : Forall (fun x : list Z * Z => 0 <= snd x < 2 ^ 32 * 10 ^ 9) (received ls)). { clear - L. induction L as [|l ls Hl _ IH]; [constructor|]. unfold received in *. cbn [flat_map]. apply Forall_app. split; [|exact IH]. destruct l; constructor; [exact Hl|constructor]. } rewrite <- R, E1 in X. apply Forall_app in X. apply X. }
  clear - Lp Lt. induction pol; constructor; inversion_clear Lp; inversion_clear Lt; auto.
Qed.
(** Never more packets than asked for, and as many unless something has set stop. *)
Theorem C69_count c m wm ls st : dconf_ok c -> Forall label_ok ls -> drun c (dinit c m wm) ls = Some st ->
  (count c <> no_limit -> packets st <= count c) /\ (w_pc (wr st) = WClosed -> w_stop (wr st) = false -> packets st = count c).
Proof.
  intros C L H. destruct (dinv_run c m wm ls st C L H) as [I _]. pose proof (j_rem c st I) as [J1 J2]. split.
  - intro N. destruct (Z.eqb_spec (count c) no_limit); [congruence|]. lia.
  - intros W S'. assert (Co : coll st = COver) by (destruct (coll st) eqn:Ec; [exfalso; assert (X : coll st <> COver) by congruence; apply (j_early c st I) in X; rewrite W in X; exact X..|reflexivity]). destruct (j_end c st I (or_intror Co)) as [Nd _]. destruct (j_ended c st I (or_intror Nd)) as [X|X]; [congruence|]. destruct (Z.eqb_spec (count c) no_limit); [unfold no_limit in *; lia|lia].
Qed.
(** The memory of a chunk is not touched while the collector reads it: not by the adapter
    and not by the network thread. *)
Theorem C69_undisturbed c m wm ls st l st' k i : dconf_ok c -> Forall label_ok ls -> drun c (dinit c m wm) ls = Some st -> label_ok l -> dlstep c st l = Some st' -> coll st = CIov k i ->
  forall s, (s < k_n k)%nat -> mem st' (k_id k) s = mem st (k_id k) s.
Proof.
  intros C L H Ll Hl Ec s Hs. destruct (dinv_run c m wm ls st C L H) as [I _]. destruct l as [pkt ns| | |got| |j a]; cbn [dlstep] in Hl.
  - unfold hw_recv in Hl. destruct (posted st) as [|[id s'] p] eqn:Ep; [discriminate|]. destruct (zlen pkt <=? snaplen c); [|discriminate]. injection Hl as <-. cbn [mem]. unfold set_mem. destruct (Nat.eqb_spec (k_id k) id); [|reflexivity]. destruct (Nat.eqb_spec s s'); [|reflexivity]. exfalso. subst.
    assert (Ho : In (k_id k, s') (owned c st)) by (rewrite <- (j_slots c st I), Ep; apply in_or_app; right; now left). pose proof (owned_safe c st k _ I Ho) as O. cbn [fst snd] in O. specialize (O (or_intror (or_intror (ex_intro _ i Ec))) eq_refl). lia.
  - destruct Ll.
  - now injection Hl as <-.
  - unfold net_step in Hl. destruct (net st) as [| |k1 e|k1 e|k1| |] eqn:En; try discriminate; try now injection Hl as <-.
    + destruct (free st); [discriminate|]. now injection Hl as <-.
    + destruct got; [|now injection Hl as <-]. destruct (cq st) as [|cp q]; [discriminate|]. destruct (cp_ok cp); injection Hl as <-; [|reflexivity]. cbn [mem]. unfold set_mem. destruct (Nat.eqb_spec (k_id k) (k_id k1)) as [E|]; [|reflexivity]. exfalso. pose proof (ids_nodup c st I) as N. unfold handles, hand, chand in N. rewrite En, Ec in N. apply (ids_apart [k1] _ k1 k N); [now left|rewrite !in_app_iff; right; left; now left|congruence].
    + destruct (_ <? _)%nat; [|discriminate]. now injection Hl as <-.
  - unfold coll_step in Hl. destruct (w_pc (wr st)); try (destruct (wstep (d_w c) (wr st)); [|discriminate]; now injection Hl as <-). rewrite Ec in Hl. destruct (_ <? _)%nat; [destruct (wcall _ _); [|discriminate]|]; now injection Hl as <-.
  - destruct (dstep _ _ _ _); [|discriminate]. now injection Hl as <-.
Qed.
(** The queues of the adapter are large enough: posted work requests and completions
    together are never more than the slots they are created with. *)
Theorem C69_capacity c m wm ls st : dconf_ok c -> Forall label_ok ls -> drun c (dinit c m wm) ls = Some st ->
  (length (posted st) + length (cq st) <= n_chunks c * max_records c)%nat /\ NoDup (posted st).
Proof.
  intros C L H. destruct (dinv_run c m wm ls st C L H) as [I _]. pose proof (owned_nodup c st I) as N. split.
  - assert (X : (length (owned c st) <= length (list_prod (seq 0 (n_chunks c)) (seq 0 (max_records c))))%nat).
    { apply NoDup_incl_length; [exact N|]. intros [id s] Hx. assert (Hs : exists k from, In k (handles st) /\ In (id, s) (slots c (k_id k) from)).
      { unfold owned in Hx. apply in_app_or in Hx as [Hx|Hx]; [|apply in_app_or in Hx as [Hx|Hx]].
        - unfold front in Hx. destruct (hand st) as [|k0 [|? ?]] eqn:Eh; [| |unfold hand in Eh; destruct (net st); discriminate].
          + destruct (g_last st) as [l|] eqn:El; [|destruct Hx]. exists l, (k_n l). split; [|exact Hx]. unfold handles. apply in_or_app. right. apply (j_last c st I l El).
          + exists k0, (k_n k0). split; [|exact Hx]. apply in_handles. left. rewrite Eh. now left.
        - apply in_flat_map in Hx as (k & Hk & Hx). apply filter_In in Hk as [Hk _]. exists k, 0%nat. split; [apply in_handles; auto|exact Hx].
        - unfold cpost in Hx. destruct (coll st) as [| | | |k| |] eqn:Ec; try destruct Hx. destruct (notlast st k); [|destruct Hx]. exists k, 0%nat. split; [|exact Hx]. apply in_handles. right. right. left. unfold chand. rewrite Ec. now left. }
      destruct Hs as (k & from & Hk & Hs). apply in_slots in Hs as [Hs1 Hs2]. cbn [fst snd] in *. subst id. apply in_prod; [|apply in_seq; lia]. eapply Permutation_in; [exact (j_ids c st I)|]. now apply in_map. }
    rewrite prod_length, !seq_length in X. rewrite <- (j_slots c st I), app_length, map_length in X. lia.
  - rewrite <- (j_slots c st I) in N. now apply nodup_r in N.
Qed.

(** No deadlock: unless a write to the disk has failed, mcdump is over with the file
    closed, or waits for packets, or some thread can take a step that is more than trying
    again. *)
Definition useful (l : dlabel) : Prop := match l with Net got => got = true | Coll => True | Disk _ a => a <> DoInt /\ a <> DoFail /\ a <> DoWrite 0 | _ => False end.
Theorem C69_progress c m wm ls st : dconf_ok c -> Forall label_ok ls -> drun c (dinit c m wm) ls = Some st -> (forall i, nth_error (w_disks (wr st)) i <> Some DFailed) ->
  (net st = NDone /\ w_pc (wr st) = WClosed) \/ ((exists k e, net st = NPoll k e) /\ cq st = []) \/
  exists l st', useful l /\ dlstep c st l = Some st'.
Proof.
  intros C L H Nf. destruct (dinv_run c m wm ls st C L H) as [I _]. pose proof C as (Wc & Mp & Np & _).
  assert (Wr : wactive (w_pc (wr st)) -> exists l st', useful l /\ dlstep c st l = Some st').
  { intros A. destruct (winv_progress _ _ Wc (j_w c st I) A Nf) as [(w' & Hw)|(i & a & w' & Hw & U)].
    - exists Coll, (set_coll st (coll st) w'). split; [exact Logic.I|]. cbn [dlstep]. unfold coll_step. rewrite Hw. destruct (w_pc (wr st)); try reflexivity; destruct A.
    - exists (Disk i a), (set_coll st (coll st) w'). split; [exact U|]. cbn [dlstep]. now rewrite Hw. }
  assert (Nt : forall st', net_step c st true = Some st' -> exists l st', useful l /\ dlstep c st l = Some st') by (intros st' Hn; exists (Net true), st'; split; [reflexivity|exact Hn]).
  assert (Cl : forall st', coll_step c st = Some st' -> exists l st', useful l /\ dlstep c st l = Some st') by (intros st' Hn; exists Coll, st'; split; [exact Logic.I|exact Hn]).
  pose proof (Permutation_length (j_ids c st I)) as Ln. rewrite map_length, seq_length in Ln. unfold handles in Ln. rewrite !app_length in Ln.
  assert (Ov : w_pc (wr st) = WClosed \/ w_pc (wr st) = WThrew \/ w_pc (wr st) = WTerminate -> coll st = COver).
  { intro W. destruct (coll st) eqn:Ec; [exfalso; assert (X : coll st <> COver) by congruence; apply (j_early c st I) in X; destruct W as [W|[W|W]]; rewrite W in X; exact X..|reflexivity]. }
  assert (Cb : (coll st = CPop /\ ring st = [] /\ rstop st = false) \/ (coll st = COver /\ w_pc (wr st) = WClosed) \/ exists l st', useful l /\ dlstep c st l = Some st').
  { destruct (w_pc (wr st)) eqn:Ep; try (right; right; apply Wr; exact Logic.I).
    - assert (Cc := Cl). unfold coll_step, wcall, wclose in Cc. rewrite Ep in Cc. destruct (coll st) as [| |k i|k|k| |] eqn:Ec.
      + right. right. eapply Cc. reflexivity.
      + destruct (ring st) eqn:Er; [|right; right; eapply Cc; reflexivity]. destruct (rstop st) eqn:Es; [right; right; eapply Cc; reflexivity|]. now left.
      + right. right. destruct (_ <? _)%nat; eapply Cc; reflexivity.
      + right. right. destruct (k_full k); eapply Cc; reflexivity.
      + right. right. unfold chand in Ln. rewrite Ec in Ln. cbn [length] in Ln. destruct (Nat.ltb_spec (length (free st)) (n_chunks c)); [eapply Cc; reflexivity|lia].
      + right. right. pose proof (i_cur _ _ (j_w c st I)) as Ic. rewrite Ep in Ic. destruct Ic as (b & Eb & _). rewrite Eb in Cc. eapply Cc. reflexivity.
      + exfalso. pose proof (j_over c st I Ec) as X. unfold endpc in X. rewrite Ep in X. exact X.
    - right. left. auto.
    - exfalso. pose proof (j_over c st I (Ov (or_intror (or_introl eq_refl)))) as X. unfold endpc in X. rewrite Ep in X. destruct X as (i & X). now apply (Nf i).
    - exfalso. pose proof (j_over c st I (Ov (or_intror (or_intror eq_refl)))) as X. unfold endpc in X. rewrite Ep in X. destruct X as (i & X). now apply (Nf i). }
  destruct Cb as [(C1 & C2 & C3)|[(C1 & C2)|U]]; [|left; split; [apply (j_end c st I); now right|exact C2]|now (right; right)].
  right. unfold net_step in Nt. unfold chand in Ln. rewrite C1, C2 in Ln. unfold hand in Ln. destruct (net st) as [| |k e|k e|k| |] eqn:En; cbn [length] in Ln.
  - right. eapply Nt. reflexivity.
  - right. destruct (free st); [cbn [length] in Ln; lia|]. eapply Nt. reflexivity.
  - right. eapply Nt. reflexivity.
  - destruct (cq st) as [|cp q]; [left; split; [now exists k, e|reflexivity]|]. right. destruct (cp_ok cp); eapply Nt; reflexivity.
  - right. rewrite C2 in Nt. destruct (Nat.ltb_spec (@length handle []) (n_chunks c)); [eapply Nt; reflexivity|cbn [length] in *; lia].
  - right. eapply Nt. reflexivity.
  - exfalso. assert (X : rstop st = true) by now apply (j_rstop c st I). congruence.
Qed.

(** *** The sizes of the buffers *)
Theorem C69_sizes snap buf d m n cs : 0 < snap -> 0 <= buf -> 1 <= max_cqe d -> 1 <= max_qp_wr d -> sizes snap buf d = (m, n, cs) ->
  1 <= m /\ 1 <= n /\ n * m <= max_cqe d /\ n * m <= max_qp_wr d /\ cs = snap * m /\ (n * cs <= buf \/ n = 1).
Proof.
  intros Hs Hb H1 H2 E. unfold sizes in E. set (m0 := if 2 * 1024 * 1024 / snap =? 0 then 1 else 2 * 1024 * 1024 / snap) in E. set (n0 := if buf / (m0 * snap) =? 0 then 1 else buf / (m0 * snap)) in E. set (sl := Z.min (max_cqe d) (max_qp_wr d)) in E. set (m1 := if sl <? m0 then sl else m0) in E.
  assert (M0 : 1 <= m0) by (unfold m0; destruct (Z.eqb_spec (2 * 1024 * 1024 / snap) 0); [lia|]; pose proof (Z.div_pos (2 * 1024 * 1024) snap); lia).
  assert (N0 : 1 <= n0 /\ (n0 * (m0 * snap) <= buf \/ n0 = 1)) by (unfold n0; pose proof (Z.div_pos buf (m0 * snap) ltac:(lia) ltac:(nia)); pose proof (Z.mul_div_le buf (m0 * snap) ltac:(nia)); destruct (Z.eqb_spec (buf / (m0 * snap)) 0); [lia|split; [lia|left; lia]]).
  assert (Sl : 1 <= sl) by lia. assert (M1 : 1 <= m1 <= sl /\ m1 <= m0) by (unfold m1; destruct (Z.ltb_spec sl m0); lia).
  assert (N1 : exists n1, n1 = (if sl <? n0 * m1 then sl / m1 else n0) /\ 1 <= n1 <= n0 /\ n1 * m1 <= sl).
  { eexists. split; [reflexivity|]. destruct (Z.ltb_spec sl (n0 * m1)); [|lia]. pose proof (Z.mul_div_le sl m1 ltac:(lia)). pose proof (Z.div_le_lower_bound sl m1 1 ltac:(lia) ltac:(lia)). assert (sl / m1 < n0) by (apply Z.div_lt_upper_bound; lia). lia. }
  destruct N1 as (n1 & En1 & N1 & N2). rewrite <- En1 in E. injection E as <- <- <-. destruct N0 as [N0 N0']. repeat split; try lia. destruct N0' as [X|X]; [left|right; lia]. assert (n1 * (snap * m1) <= n0 * (m0 * snap)) by (assert (snap * m1 <= m0 * snap) by nia; nia). lia.
Qed.
(** Each chunk is a memory region of its own, but the limit on those is not heeded. *)
Theorem C69_sizes_regions_refuted : exists snap buf d m n cs, 0 < snap /\ 0 <= buf /\ 1 <= max_cqe d /\ 1 <= max_qp_wr d /\ 1 <= max_mr d /\ sizes snap buf d = (m, n, cs) /\ max_mr d < n.
Proof. exists 9230, (128 * 1024 * 1024), {| max_cqe := 100000; max_qp_wr := 32768; max_mr := 32 |}, 227, 64, 2095210. vm_compute. repeat split; discriminate. Qed.

(** *** Examples, and what goes wrong *)
Definition ex_w : wconf := {| bufsize := 40; depth := 2; disks := 2 |}.
Definition ex_c : dconf := {| d_w := ex_w; snaplen := 4; max_records := 2; n_chunks := 2; count := 3; stamps := true |}.
Definition ex_m : nat -> nat -> entry := fun _ _ => {| e_data := [0; 0; 0; 0]; e_sec := 7; e_nsec := 7; e_incl := 1; e_orig := 1; e_iov := 1 |}.
Definition ex_wm : nat -> nat -> Z := fun _ _ => 9.
(** A schedule: always the first of some steps that is possible *)
Fixpoint sched (fuel : nat) (prio : list dlabel) (c : dconf) (st : dst) : list dlabel :=
  match fuel with
  | O => []
  | S fuel =>
      let go l := match dlstep c st l with Some st' => Some (l, st') | None => None end in
      let pick := fold_right (fun l r => match go l with Some x => Some x | None => r end) None prio in
      match pick with Some (l, st') => l :: sched fuel prio c st' | None => [] end
  end.
Definition ex_prio : list dlabel := [Net true; Coll; Disk 0 DoPop; Disk 1 DoPop; Disk 0 (DoWrite 25); Disk 0 (DoWrite 15); Disk 1 (DoWrite 40); Disk 0 DoReturn; Disk 1 DoReturn; Disk 0 DoExit; Disk 1 DoExit].
Definition ex_arrive : list dlabel := [HRecv [1; 2; 3] 5000000007; HRecv [] 5000000008; HRecv [4; 5; 6; 7] 6000000000; HRecv [8] 6000000001].
Definition after (c : dconf) (st : dst) (ls : list dlabel) : dst := match drun c st ls with Some st' => st' | None => st end.
Definition ex_ls : list dlabel := ex_arrive ++ sched 200 ex_prio ex_c (after ex_c (dinit ex_c ex_m ex_wm) ex_arrive).
Example C69_conf_ex : dconf_ok ex_c. Proof. repeat split; cbn; try lia; unfold no_limit; lia. Qed.
Example C69_ex : Forall label_ok ex_ls /\ exists st, drun ex_c (dinit ex_c ex_m ex_wm) ex_ls = Some st /\ w_pc (wr st) = WClosed /\ w_stop (wr st) = false /\ packets st = 3 /\ bytes st = 7 /\
  parse_pcap (content (w_file (wr st))) = Some (4, [{| c_sec := 5; c_nsec := 7; c_orig := 3; c_data := [1; 2; 3] |}; {| c_sec := 5; c_nsec := 8; c_orig := 0; c_data := [] |}; {| c_sec := 6; c_nsec := 0; c_orig := 4; c_data := [4; 5; 6; 7] |}]).
Proof.
  split.
  - apply Forall_forall. intros l Hl. destruct l; try exact Logic.I; [|exfalso; revert Hl; vm_compute; intuition discriminate].
    assert (X : In (pkt, ns) (received ex_ls)) by (unfold received; apply in_flat_map; eexists; split; [exact Hl|now left]). assert (E : received ex_ls = [([1; 2; 3], 5000000007); ([], 5000000008); ([4; 5; 6; 7], 6000000000); ([8], 6000000001)]) by (vm_compute; reflexivity). rewrite E in X. cbn [In] in X. cbn [label_ok]. destruct X as [X|[X|[X|[X|[]]]]]; injection X as <- <-; lia.
  - eexists. split; [vm_compute; reflexivity|]. repeat split; vm_compute; reflexivity.
Qed.
(** A point of the same execution at which the collector reads a chunk while the adapter
    still receives *)
Definition ex_mid : list dlabel := [HRecv [1; 2; 3] 5000000007; HRecv [] 5000000008] ++ sched 17 ex_prio ex_c (after ex_c (dinit ex_c ex_m ex_wm) [HRecv [1; 2; 3] 5000000007; HRecv [] 5000000008]).
Example C69_mid_ex : exists st st' k i, drun ex_c (dinit ex_c ex_m ex_wm) ex_mid = Some st /\ coll st = CIov k i /\ k_n k = 2%nat /\ dlstep ex_c st (HRecv [4; 5; 6; 7] 6000000000) = Some st'.
Proof. eexists _, _, _, _. split; [vm_compute; reflexivity|]. split; [cbn; reflexivity|]. split; reflexivity. Qed.

(** When writing to the disk fails and no buffer is left, the collector waits for one for
    ever: no thread can do anything any more, and mcdump is not over. *)
Definition bad_w : wconf := {| bufsize := 40; depth := 1; disks := 1 |}.
Definition bad_c : dconf := {| d_w := bad_w; snaplen := 4; max_records := 2; n_chunks := 2; count := 3; stamps := true |}.
Definition fail_prio : list dlabel := [Net true; Coll; Disk 0 DoPop; Disk 0 DoFail].
Definition fail_ls (c : dconf) : list dlabel := ex_arrive ++ sched 200 fail_prio c (after c (dinit c ex_m ex_wm) ex_arrive).
Theorem C69_disk_error_hang_refuted : exists ls st, Forall label_ok ls /\ drun bad_c (dinit bad_c ex_m ex_wm) ls = Some st /\ w_stop (wr st) = true /\ w_pc (wr st) <> WClosed /\
  forall l, match l with Net _ | Coll | Disk _ _ => dlstep bad_c st l = None | _ => True end.
Proof.
  exists (fail_ls bad_c). eexists. split.
  - apply Forall_forall. intros l Hl. destruct l; try exact Logic.I; [|exfalso; revert Hl; vm_compute; intuition discriminate].
    assert (X : In (pkt, ns) (received (fail_ls bad_c))) by (unfold received; apply in_flat_map; eexists; split; [exact Hl|now left]). assert (E : received (fail_ls bad_c) = [([1; 2; 3], 5000000007); ([], 5000000008); ([4; 5; 6; 7], 6000000000); ([8], 6000000001)]) by (vm_compute; reflexivity). rewrite E in X. cbn [In] in X. cbn [label_ok]. destruct X as [X|[X|[X|[X|[]]]]]; injection X as <- <-; lia.
  - split; [vm_compute; reflexivity|]. split; [reflexivity|]. split; [discriminate|]. intro l. destruct l as [pkt ns| | |got| |i a]; try exact Logic.I; [reflexivity|reflexivity|]. destruct i as [|[|i]]; destruct a; reflexivity.
Qed.
(** If there are buffers left, close throws, and the destructor calls it again, which
    throws again: std::terminate. *)
Definition term_c : dconf := {| d_w := {| bufsize := 100; depth := 3; disks := 1 |}; snaplen := 4; max_records := 2; n_chunks := 2; count := 3; stamps := true |}.
Theorem C69_disk_error_terminate_refuted : exists ls st, drun term_c (dinit term_c ex_m ex_wm) ls = Some st /\ w_pc (wr st) = WTerminate /\ w_stop (wr st) = true.
Proof. exists (fail_ls term_c). eexists. split; [vm_compute; reflexivity|]. split; reflexivity. Qed.
(** A work request that fails makes the file wrong: the record of the next packet goes
    into the entry after, but the entries from the first on are written. *)
Definition lost_arrive : list dlabel := [HFail; HRecv [1; 2; 3] 5000000007; HRecv [] 5000000008; HRecv [4; 5; 6; 7] 6000000000].
Definition lost_ls : list dlabel := lost_arrive ++ sched 200 ex_prio ex_c (after ex_c (dinit ex_c ex_m ex_wm) lost_arrive).
Theorem C69_failed_receive_refuted : exists ls st, drun ex_c (dinit ex_c ex_m ex_wm) ls = Some st /\ w_pc (wr st) = WClosed /\ errors st = 1 /\ packets st = 2 /\
  (exists r, parse_pcap (content (w_file (wr st))) = Some (4, r) /\ forall x, In x (received ls) -> ~ In (capture true x) (firstn 1 r)).
Proof.
  exists lost_ls. eexists. split; [vm_compute; reflexivity|]. split; [reflexivity|]. split; [reflexivity|]. split; [reflexivity|]. eexists. split; [vm_compute; reflexivity|]. intros x Hx. assert (E : received lost_ls = [([1; 2; 3], 5000000007); ([], 5000000008); ([4; 5; 6; 7], 6000000000)]) by (vm_compute; reflexivity). rewrite E in Hx. cbn [In] in Hx. cbn [firstn]. destruct Hx as [<-|[<-|[<-|[]]]]; vm_compute; intuition discriminate.
Qed.

Print Assumptions C69_file.
Print Assumptions C69_count.
Print Assumptions C69_undisturbed.
Print Assumptions C69_capacity.
Print Assumptions C69_progress.
Print Assumptions C69_sizes.
Print Assumptions C69_sizes_regions_refuted.
Print Assumptions C69_disk_error_hang_refuted.
Print Assumptions C69_disk_error_terminate_refuted.
Print Assumptions C69_failed_receive_refuted.
