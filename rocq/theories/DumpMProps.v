(** C71: mcdump with a multi-packet receive queue writes what it receives. *)
From Coq Require Import ZArith List Bool Arith Lia Permutation.
From Verif Require Import Base ConcBase DumpWModel DumpWProofs DumpModel DumpSpec DumpProofs DumpProps DumpMModel DumpMSpec DumpMProofs.
Import ListNotations.
Open Scope Z_scope.

Lemma parse_rec c x r snap fuel : snap = snaplen (m_d c) -> 0 <= snap < 2 ^ 32 -> zlen (fst x) < 65536 -> 0 <= snd x < 2 ^ 32 * 10 ^ 9 ->
  parse_records (S fuel) snap (rec_bytes c x ++ r) = match parse_records fuel snap r with Some l => Some (capture (stamps (m_d c)) snap x :: l) | None => None end.
Proof.
  intros Es Hs Hl Hn. pose proof (zlen_nonneg (fst x)) as P. unfold rec_bytes. rewrite <- Es. rewrite <- !app_assoc. set (incl := Z.min (zlen (fst x)) snap). set (d := firstn (Z.to_nat incl) (fst x)).
  assert (Ld : zlen d = incl) by (unfold d, zlen in *; rewrite firstn_length; lia).
  assert (E : forall a b c1 e t, parse_records (S fuel) snap (le 4 a ++ le 4 b ++ le 4 c1 ++ le 4 e ++ t) =
    match read_le 4 (le 4 a ++ le 4 b ++ le 4 c1 ++ le 4 e ++ t) with Some (sec, l) =>
      match read_le 4 l with Some (nsec, l) =>
      match read_le 4 l with Some (incl, l) =>
      match read_le 4 l with Some (orig, l) =>
        if (incl <=? snap) && (incl <=? zlen l) then
          match parse_records fuel snap (skipn (Z.to_nat incl) l) with
          | Some r => Some ({| c_sec := sec; c_nsec := nsec; c_orig := orig; c_data := firstn (Z.to_nat incl) l |} :: r)
          | None => None
          end
        else None
      | None => None end | None => None end | None => None end | None => None end).
  { intros. destruct (le 4 a) eqn:El; [|reflexivity]. exfalso. apply (f_equal (@length Z)) in El. unfold le in El. rewrite rev_length, be_encode_length in El. discriminate. }
  rewrite E. clear E. change (2 ^ 32) with (256 ^ Z.of_nat 4) in *.
  assert (D : 0 <= snd x / 10 ^ 9 < 256 ^ Z.of_nat 4) by (split; [apply Z.div_pos; lia|apply Z.div_lt_upper_bound; lia]).
  assert (M : 0 <= snd x mod 10 ^ 9 < 256 ^ Z.of_nat 4) by (pose proof (Z.mod_pos_bound (snd x) (10 ^ 9) ltac:(lia)); change (256 ^ Z.of_nat 4) with 4294967296 in *; change (10 ^ 9) with 1000000000 in *; lia).
  assert (Bi : 0 <= incl < 256 ^ Z.of_nat 4) by (unfold incl; lia). assert (Bl : 0 <= zlen (fst x) < 256 ^ Z.of_nat 4) by (change (256 ^ Z.of_nat 4) with 4294967296; lia).
  rewrite read_le_app by (destruct (stamps (m_d c)); lia). rewrite read_le_app by (destruct (stamps (m_d c)); lia). rewrite read_le_app by exact Bi. rewrite read_le_app by exact Bl.
  replace (incl <=? snap) with true by (symmetry; apply Z.leb_le; lia). replace (incl <=? zlen (d ++ r)) with true by (symmetry; apply Z.leb_le; rewrite zlen_app; pose proof (zlen_nonneg r); lia). cbn [andb].
  assert (Ln : length d = Z.to_nat incl) by (unfold zlen in Ld; lia). rewrite <- Ln, firstn_app, Nat.sub_diag, firstn_all, skipn_app, Nat.sub_diag, skipn_all. cbn [firstn skipn app]. rewrite app_nil_r.
  assert (Ed : d = firstn (Z.to_nat snap) (fst x)). { unfold d, incl, zlen in *. destruct (Z.le_gt_cases (Z.of_nat (length (fst x))) snap); [rewrite !firstn_all2 by lia; reflexivity|]. do 2 f_equal. lia. }
  rewrite Ed. reflexivity.
Qed.
Lemma parse_all c l snap : snap = snaplen (m_d c) -> 0 <= snap < 2 ^ 32 -> Forall (fun x => zlen (fst x) < 65536 /\ 0 <= snd x < 2 ^ 32 * 10 ^ 9) l -> forall fuel, (length (flat_map (rec_bytes c) l) <= fuel)%nat ->
  parse_records fuel snap (flat_map (rec_bytes c) l) = Some (map (capture (stamps (m_d c)) snap) l).
Proof.
  intros Es Hs. induction 1 as [|x l [H1 H2] _ IH]; intros fuel Hf; [now destruct fuel|]. cbn [flat_map map] in *. rewrite app_length in Hf. assert (16 <= length (rec_bytes c x))%nat by (unfold rec_bytes, le; rewrite !app_length, !rev_length, !be_encode_length; lia). destruct fuel as [|fuel]; [lia|]. rewrite parse_rec by assumption. rewrite IH by lia. reflexivity.
Qed.
Lemma parse_file c l : 0 <= snaplen (m_d c) < 2 ^ 32 -> Forall (fun x => zlen (fst x) < 65536 /\ 0 <= snd x < 2 ^ 32 * 10 ^ 9) l ->
  parse_pcap (file_header (m_d c) ++ flat_map (rec_bytes c) l) = Some (snaplen (m_d c), map (capture (stamps (m_d c)) (snaplen (m_d c))) l).
Proof.
  intros Hs H. unfold parse_pcap, file_header. rewrite <- !app_assoc. rewrite read_le_app by (cbn; lia). rewrite read_le_app by (cbn; lia). rewrite read_le_app by (cbn; lia). rewrite read_le_app by (cbn; lia). rewrite read_le_app by (cbn; lia). rewrite read_le_app by exact Hs. rewrite read_le_app by (cbn; lia). cbn [Z.eqb Pos.eqb andb].
  rewrite parse_all; auto.
Qed.

(** When the file is closed, it is a pcap file with the packets that were received, from the first on, in order, cut to
    the snap length, with their times; the counters that are reported agree.  Anything may happen in the meantime but
    failing receives; the memory may hold anything to begin with. *)
Theorem C71_file c s e wm ls st : mconf_ok c -> Forall label_ok ls -> drun c (dinit c s e wm) ls = Some st -> w_pc (wr st) = WClosed ->
  exists n, (n <= length (received ls))%nat /\ packets st = Z.of_nat n /\ bytes st = fold_right (fun x z => zlen (fst x) + z) 0 (firstn n (received ls)) /\ errors st = 0 /\
  parse_pcap (content (w_file (wr st))) = Some (snaplen (m_d c), map (capture (stamps (m_d c)) (snaplen (m_d c))) (firstn n (received ls))).
Proof.
  intros C L H W. destruct (dinv_run c s e wm ls st C L H) as [I R]. destruct (j_data c st I) as (pol & pnd & E1 & E2 & E3 & _ & E5). exists (length pol). rewrite <- R, E1, firstn_app, Nat.sub_diag, firstn_all. cbn [firstn]. rewrite app_nil_r.
  assert (Co : coll st = COver) by (destruct (coll st) eqn:Ec; [exfalso; assert (X : coll st <> COver) by congruence; apply (j_early c st I) in X; rewrite W in X; exact X..|reflexivity]).
  destruct (j_end c st I (or_intror Co)) as [Nd Rg]. split; [rewrite app_length; lia|]. split; [exact E2|]. split; [exact E3|]. split; [exact (j_err c st I)|].
  rewrite (i_closed _ _ (j_w c st I) W). unfold tocome, reading, hand in E5. rewrite Co, Nd, Rg in E5. cbn [flat_map app] in E5. rewrite app_nil_r in E5. rewrite E5. apply parse_file; [apply C|].
  assert (Lp : Forall (fun x => zlen (fst x) < 65536) pol) by (pose proof (j_len c st I) as X; rewrite E1 in X; apply Forall_app in X; apply X).
  assert (Lt : Forall (fun x => 0 <= snd x < 2 ^ 32 * 10 ^ 9) pol).
  { assert (X : Forall (fun x : list Z * Z => 0 <= snd x < 2 ^ 32 * 10 ^ 9) (received ls)). { clear - L. induction L as [|l ls Hl _ IH]; [constructor|]. unfold received in *. cbn [flat_map]. apply Forall_app. split; [|exact IH]. destruct l; constructor; [exact Hl|constructor]. } rewrite <- R, E1 in X. apply Forall_app in X. apply X. }
  clear - Lp Lt. induction pol; constructor; inversion_clear Lp; inversion_clear Lt; auto.
Qed.
(** Never more packets than asked for, and as many unless something has set stop. *)
Theorem C71_count c s e wm ls st : mconf_ok c -> Forall label_ok ls -> drun c (dinit c s e wm) ls = Some st ->
  (count (m_d c) <> no_limit -> packets st <= count (m_d c)) /\ (w_pc (wr st) = WClosed -> w_stop (wr st) = false -> packets st = count (m_d c)).
Proof.
  intros C L H. destruct (dinv_run c s e wm ls st C L H) as [I _]. pose proof (j_rem c st I) as [J1 J2]. split.
  - intro N. destruct (Z.eqb_spec (count (m_d c)) no_limit); [congruence|]. lia.
  - intros W S'. assert (Co : coll st = COver) by (destruct (coll st) eqn:Ec; [exfalso; assert (X : coll st <> COver) by congruence; apply (j_early c st I) in X; rewrite W in X; exact X..|reflexivity]). destruct (j_end c st I (or_intror Co)) as [Nd _]. destruct (j_ended c st I (or_intror Nd)) as [X|X]; [congruence|]. destruct (Z.eqb_spec (count (m_d c)) no_limit); [unfold no_limit in *; lia|lia].
Qed.
(** What the collector reads of a chunk is not touched meanwhile, not by the adapter and not by the network thread:
    headers, iovecs and the bytes they refer to. *)
Theorem C71_undisturbed c s e wm ls st l st' k i : mconf_ok c -> Forall label_ok ls -> drun c (dinit c s e wm) ls = Some st -> label_ok l -> dlstep c st l = Some st' -> coll st = CIov k i ->
  forall j, (j < 2 * k_n k)%nat -> iov (sto st') (ent st') (k_id k) j = iov (sto st) (ent st) (k_id k) j.
Proof.
  intros C L H Ll Hl Ec j Hj. destruct (dinv_run c s e wm ls st C L H) as [I _]. assert (W : waiting st k) by (right; right; now exists i). assert (Hd : (j / 2 < k_n k)%nat) by (apply Nat.div_lt_upper_bound; lia).
  destruct l as [pkt ns| | | |got| |j' a]; cbn [dlstep] in Hl.
  - unfold hw_recv in Hl. destruct (wqs st) as [|id w] eqn:Ew; [discriminate|]. destruct (Nat.leb_spec (used st + strides c (length pkt)) (max_records (m_d c))) as [U|]; [|discriminate]. destruct (zlen pkt <? 65536); [|discriminate]. cbn [andb] in Hl. destruct (advance _ _ _) as [w' u']. injection Hl as <-. cbn [set_card sto ent]. unfold iov. destruct (Nat.even j); [reflexivity|]. exact (put_safe c st pkt id w C I Ew U k (j / 2)%nat W Hd).
  - unfold hw_fill in Hl. destruct (wqs st) as [|id w]; [discriminate|]. destruct (_ <? _)%nat; [|discriminate]. now injection Hl as <-.
  - destruct Ll.
  - now injection Hl as <-.
  - unfold net_step in Hl. destruct (net st) as [| |k1|k1|k1| |] eqn:En; try discriminate; try now injection Hl as <-.
    + destruct (free st); [discriminate|]. now injection Hl as <-.
    + destruct got; [|now injection Hl as <-]. destruct (cq st) as [|cp q]; [discriminate|]. destruct (cp_ok cp); [|now injection Hl as <-]. destruct (read_wc _ _ _) as [[[[len off] fill] last] t]. injection Hl as <-. cbn [sto ent]. destruct fill; [reflexivity|]. unfold iov, set_ent. destruct (Nat.eqb_spec (k_id k) (k_id k1)) as [E|]; [|reflexivity]. exfalso. pose proof (ids_nodup c st I) as N. unfold handles, hand, chand in N. rewrite En, Ec in N. apply (ids_apart [k1] _ k1 k N); [now left|rewrite !in_app_iff; right; left; now left|congruence].
    + destruct (_ <? _)%nat; [|discriminate]. now injection Hl as <-.
  - unfold coll_step in Hl. destruct (w_pc (wr st)); try (destruct (wstep (d_w (m_d c)) (wr st)); [|discriminate]; now injection Hl as <-). rewrite Ec in Hl. destruct (_ <? _)%nat; [destruct (wcall _ _); [|discriminate]|]; now injection Hl as <-.
  - destruct (dstep _ _ _ _); [|discriminate]. now injection Hl as <-.
Qed.
(** Nothing overflows: the queue of work requests has room whenever a chunk is to be posted, so that post_recv does not
    throw; completions fit in their queue; records are stored in entries that the chunk has; the iovecs of chunks that
    are to be written lie within their storage, as does what the adapter is given. *)
Theorem C71_capacity c s e wm ls st : mconf_ok c -> Forall label_ok ls -> drun c (dinit c s e wm) ls = Some st ->
  (infl st <= n_chunks (m_d c))%nat /\ (forall k, coll st = CPost k -> k_full k = true -> (infl st < n_chunks (m_d c))%nat) /\
  (length (cq st) <= n_chunks (m_d c) * max_records (m_d c))%nat /\ (forall k, net st = NPoll k -> (k_n k < max_records (m_d c))%nat) /\
  (forall k i, In k (ring st) \/ (exists j, coll st = CIov k j) -> (i < k_n k)%nat -> (e_off (ent st (k_id k) i) + e_len (ent st (k_id k) i) <= max_records (m_d c) * stride c)%nat).
Proof.
  intros C L H. destruct (dinv_run c s e wm ls st C L H) as [I _]. pose proof (owned_nodup c st I) as N. split; [|split; [|split; [|split]]].
  - pose proof (Permutation_length (j_ids c st I)) as Ln. rewrite map_length, seq_length in Ln. unfold handles in Ln. rewrite !app_length in Ln. rewrite (j_infl c st I). pose proof (filter_le (notlast st) (free st)) as Fl.
    assert (Nc : (ncpost st <= length (chand st))%nat) by (unfold ncpost, chand; destruct (coll st); try (cbn [length]; lia); destruct (notlast st k); cbn [length]; lia).
    unfold nfront. destruct (hand st) as [|k0 [|? ?]] eqn:Eh; [| |unfold hand in Eh; destruct (net st); discriminate].
    + destruct (g_last st) as [l|] eqn:El; [|cbn [length] in Ln; lia]. destruct (j_last c st I l El) as (_ & _ & _ & Il). rewrite !in_app_iff in Il. assert (Nl : notlast st l = false) by (unfold notlast; rewrite El, Nat.eqb_refl; reflexivity). destruct Il as [Il|[Il|Il]].
      * destruct (ring st); [destruct Il|]. cbn [length] in *. lia.
      * assert (ncpost st = 0%nat /\ length (chand st) = 1%nat) as [-> X]; [|rewrite X in Ln; cbn [length] in Ln; lia]. unfold ncpost, chand in *. destruct (coll st); try destruct Il as [->|[]]; try destruct Il; auto. rewrite Nl. auto.
      * pose proof (filter_lt _ _ _ Il Nl). cbn [length] in *. lia.
    + cbn [length] in *. destruct (k_full k0); lia.
  - intros k Ec F. eapply infl_room; eauto.
  - assert (X : (length (owned c st) <= length (list_prod (seq 0 (n_chunks (m_d c))) (seq 0 (max_records (m_d c)))))%nat).
    { apply NoDup_incl_length; [exact N|]. intros [id z] Hx. assert (Hs : exists k from, In k (handles st) /\ In (id, z) (slots (m_d c) (k_id k) from)).
      { unfold owned in Hx. apply in_app_or in Hx as [Hx|Hx]; [|apply in_app_or in Hx as [Hx|Hx]].
        - unfold front in Hx. destruct (hand st) as [|k0 [|? ?]] eqn:Eh; [| |unfold hand in Eh; destruct (net st); discriminate].
          + destruct (g_last st) as [l|] eqn:El; [|destruct Hx]. exists l, (tstr st). split; [|exact Hx]. unfold handles. apply in_or_app. right. apply (j_last c st I l El).
          + destruct (k_full k0); [destruct Hx|]. exists k0, (tstr st). split; [|exact Hx]. apply in_handles. left. rewrite Eh. now left.
        - apply in_flat_map in Hx as (k & Hk & Hx). apply filter_In in Hk as [Hk _]. exists k, 0%nat. split; [apply in_handles; auto|exact Hx].
        - unfold cpost in Hx. destruct (coll st) as [| | | |k| |] eqn:Ec; try destruct Hx. destruct (notlast st k); [|destruct Hx]. exists k, 0%nat. split; [|exact Hx]. apply in_handles. right. right. left. unfold chand. rewrite Ec. now left. }
      destruct Hs as (k & from & Hk & Hs). apply in_slots in Hs as [Hs1 Hs2]. cbn [fst snd] in *. subst id. apply in_prod; [|apply in_seq; lia]. eapply Permutation_in; [exact (j_ids c st I)|]. now apply in_map. }
    rewrite prod_length, !seq_length in X. rewrite <- (j_slots c st I), app_length in X. assert (Y : (length (cq st) <= length (flat_map rng (cq st)))%nat); [|lia].
    pose proof (j_cq c st I) as F. clear - F. induction F as [|cp q (_ & (F & _) & _) _ IH]; [auto|]. cbn [flat_map length]. unfold rng at 1. rewrite app_length, map_length, seq_length. lia.
  - intros k En. destruct (j_poll c st I k En) as [F _]. pose proof (j_kn c st I k) as X. unfold hand in X. rewrite En, F in X. specialize (X (or_introl eq_refl)). lia.
  - intros k i W. apply (j_box c st I). now right.
Qed.
(** No deadlock: unless a write to the disk has failed, mcdump is over with the file closed, or waits for packets while
    the adapter has memory for them, or some thread can take a step that is more than trying again. *)
Definition useful (l : dlabel) : Prop := match l with Net got => got = true | Coll => True | Disk _ a => a <> DoInt /\ a <> DoFail /\ a <> DoWrite 0 | _ => False end.
Theorem C71_progress c s e wm ls st : mconf_ok c -> Forall label_ok ls -> drun c (dinit c s e wm) ls = Some st -> (forall i, nth_error (w_disks (wr st)) i <> Some DFailed) ->
  (net st = NDone /\ w_pc (wr st) = WClosed) \/ ((exists k, net st = NPoll k) /\ cq st = [] /\ wqs st <> []) \/
  exists l st', useful l /\ dlstep c st l = Some st'.
Proof.
  intros C L H Nf. destruct (dinv_run c s e wm ls st C L H) as [I _]. pose proof C as ((Wc & Mp & Np & _) & _).
  assert (Wr : wactive (w_pc (wr st)) -> exists l st', useful l /\ dlstep c st l = Some st').
  { intros A. destruct (winv_progress _ _ Wc (j_w c st I) A Nf) as [(w' & Hw)|(i & a & w' & Hw & U)].
    - exists Coll, (set_coll st (coll st) w'). split; [exact Logic.I|]. cbn [dlstep]. unfold coll_step. rewrite Hw. destruct (w_pc (wr st)); try reflexivity; destruct A.
    - exists (Disk i a), (set_coll st (coll st) w'). split; [exact U|]. cbn [dlstep]. now rewrite Hw. }
  assert (Nt : forall st', net_step c st true = Some st' -> exists l st', useful l /\ dlstep c st l = Some st') by (intros st' Hn; exists (Net true), st'; split; [reflexivity|exact Hn]).
  assert (Cl : forall st', coll_step c st = Some st' -> exists l st', useful l /\ dlstep c st l = Some st') by (intros st' Hn; exists Coll, st'; split; [exact Logic.I|exact Hn]).
  pose proof (Permutation_length (j_ids c st I)) as Ln. rewrite map_length, seq_length in Ln. unfold handles in Ln. rewrite !app_length in Ln.
  assert (Ov : w_pc (wr st) = WClosed \/ w_pc (wr st) = WThrew \/ w_pc (wr st) = WTerminate -> coll st = COver).
  { intro W. destruct (coll st) eqn:Ec; [exfalso; assert (X : coll st <> COver) by congruence; apply (j_early c st I) in X; destruct W as [W|[W|W]]; rewrite W in X; exact X..|reflexivity]. }
  assert (Cb : (coll st = CPop /\ ring st = [] /\ rstop st = false) \/ (coll st = COver /\ w_pc (wr st) = WClosed) \/ exists l st', useful l /\ dlstep c st l = Some st').
  { destruct (w_pc (wr st)) eqn:Ep; try (right; right; apply Wr; exact Logic.I).
    - assert (Cc := Cl). unfold coll_step, wcall, wclose in Cc. rewrite Ep in Cc. destruct (coll st) as [| |k i|k|k| |] eqn:Ec.
      + right. right. eapply Cc. reflexivity.
      + destruct (ring st) eqn:Er; [|right; right; eapply Cc; reflexivity]. destruct (rstop st) eqn:Es; [right; right; eapply Cc; reflexivity|]. now left.
      + right. right. destruct (_ <? _)%nat; eapply Cc; reflexivity.
      + right. right. destruct (k_full k) eqn:Ek; [|eapply Cc; reflexivity]. pose proof (infl_room c st k I Ec Ek). destruct (Nat.ltb_spec (infl st) (n_chunks (m_d c))); [eapply Cc; reflexivity|lia].
      + right. right. unfold chand in Ln. rewrite Ec in Ln. cbn [length] in Ln. destruct (Nat.ltb_spec (length (free st)) (n_chunks (m_d c))); [eapply Cc; reflexivity|lia].
      + right. right. pose proof (i_cur _ _ (j_w c st I)) as Ic. rewrite Ep in Ic. destruct Ic as (b & Eb & _). rewrite Eb in Cc. eapply Cc. reflexivity.
      + exfalso. pose proof (j_over c st I Ec) as X. unfold endpc in X. rewrite Ep in X. exact X.
    - right. left. auto.
    - exfalso. pose proof (j_over c st I (Ov (or_intror (or_introl eq_refl)))) as X. unfold endpc in X. rewrite Ep in X. destruct X as (i & X). now apply (Nf i).
    - exfalso. pose proof (j_over c st I (Ov (or_intror (or_intror eq_refl)))) as X. unfold endpc in X. rewrite Ep in X. destruct X as (i & X). now apply (Nf i). }
  destruct Cb as [(C1 & C2 & C3)|[(C1 & C2)|U]]; [|left; split; [apply (j_end c st I); now right|exact C2]|now (right; right)].
  right. unfold net_step in Nt. unfold chand in Ln. rewrite C1, C2 in Ln. unfold hand in Ln. destruct (net st) as [| |k|k|k| |] eqn:En; cbn [length] in Ln.
  - right. eapply Nt. reflexivity.
  - right. destruct (free st); [cbn [length] in Ln; lia|]. eapply Nt. reflexivity.
  - right. eapply Nt. reflexivity.
  - destruct (cq st) as [|cp q] eqn:Eq.
    + left. split; [now exists k|]. split; [reflexivity|]. intro Ew. pose proof (j_slots c st I) as J. rewrite Eq, Ew in J. cbn [flat_map app pslots] in J. destruct (j_poll c st I k En) as [F _]. pose proof (j_kn c st I k) as X. unfold owned, front, hand in *. rewrite En, F in *. specialize (X (or_introl eq_refl)). rewrite slots_cons in J by lia. discriminate.
    + right. destruct (cp_ok cp); [|eapply Nt; reflexivity]. destruct (read_wc _ _ _) as [[[[len off] fill] last] t]. eapply Nt; reflexivity.
  - right. rewrite C2 in Nt. destruct (Nat.ltb_spec (@length handle []) (n_chunks (m_d c))); [eapply Nt; reflexivity|cbn [length] in *; lia].
  - right. eapply Nt. reflexivity.
  - exfalso. assert (X : rstop st = true) by now apply (j_rstop c st I). congruence.
Qed.
(** *** The sizes of the buffers *)
Theorem C71_sizes buf d m n cs : 0 <= buf -> 0 <= min_ls d <= max_ls d -> 0 <= min_ln d <= max_ln d -> 1 <= md_qp_wr d -> 1 <= md_mr d -> msizes buf d = (m, n, cs) ->
  exists ls ln, m = 2 ^ ln /\ cs = m * 2 ^ ls /\ min_ls d <= ls <= max_ls d /\ min_ln d <= ln <= max_ln d /\
  1 <= n <= md_qp_wr d /\ n <= md_mr d /\ (n * cs <= buf \/ n = 1) /\
  (min_ls d <= 6 <= max_ls d -> ls = 6 /\ (min_ln d <= 15 -> m <= 32768) /\ (min_ln d <= 15 <= max_ln d -> m = 32768 /\ cs = 2 * 1024 * 1024)).
Proof.
  intros Hb Hs Hn Hq Hm E. unfold msizes in E. set (ls := clamp 6 (min_ls d) (max_ls d)) in E. set (ln := clamp ((21 - ls) mod 2 ^ 32) (min_ln d) (max_ln d)) in E.
  assert (Bs : min_ls d <= ls <= max_ls d) by (unfold ls, clamp; destruct (Z.ltb_spec 6 (min_ls d)), (Z.ltb_spec (max_ls d) 6); lia).
  assert (Bn : min_ln d <= ln <= max_ln d) by (unfold ln, clamp; destruct (Z.ltb_spec ((21 - ls) mod 2 ^ 32) (min_ln d)), (Z.ltb_spec (max_ln d) ((21 - ls) mod 2 ^ 32)); lia).
  pose proof (Z.pow_pos_nonneg 2 ls ltac:(lia) ltac:(lia)) as P1. pose proof (Z.pow_pos_nonneg 2 ln ltac:(lia) ltac:(lia)) as P2. set (z := 2 ^ ln * 2 ^ ls) in E. assert (Pz : 0 < z) by (unfold z; nia).
  set (n0 := if buf / z =? 0 then 1 else buf / z) in E. assert (N0 : 1 <= n0 /\ (n0 * z <= buf \/ n0 = 1)) by (unfold n0; pose proof (Z.div_pos buf z ltac:(lia) Pz); pose proof (Z.mul_div_le buf z Pz); destruct (Z.eqb_spec (buf / z) 0); [lia|split; [lia|left; lia]]).
  injection E as <- E2 <-. exists ls, ln. split; [reflexivity|]. split; [reflexivity|]. split; [exact Bs|]. split; [exact Bn|].
  assert (Bd : 1 <= n <= n0 /\ n <= md_qp_wr d /\ n <= md_mr d) by (rewrite <- E2; destruct (Z.ltb_spec (Z.min (md_qp_wr d) (md_mr d)) n0); lia).
  split; [lia|]. split; [lia|]. split; [destruct N0 as [_ [X|X]]; [left; assert (n * z <= n0 * z) by nia; lia|right; lia]|].
  intro S6. assert (E6 : ls = 6) by (unfold ls, clamp; destruct (Z.ltb_spec 6 (min_ls d)), (Z.ltb_spec (max_ls d) 6); lia). split; [exact E6|]. assert (El : ln = clamp 15 (min_ln d) (max_ln d)) by (unfold ln; rewrite E6; reflexivity). split.
  - intro M. change 32768 with (2 ^ 15). apply Z.pow_le_mono_r; [lia|]. rewrite El. unfold clamp. destruct (Z.ltb_spec 15 (min_ln d)), (Z.ltb_spec (max_ln d) 15); lia.
  - intro M. assert (E15 : ln = 15) by (rewrite El; unfold clamp; destruct (Z.ltb_spec 15 (min_ln d)), (Z.ltb_spec (max_ln d) 15); lia). unfold z. rewrite E15, E6. split; reflexivity.
Qed.
(** But the completion queue that goes with them may be larger than the device allows; the constructor then throws. *)
Theorem C71_sizes_cqe_refuted : exists buf d, 0 <= buf /\ min_ls d <= 6 <= max_ls d /\ min_ln d <= 15 <= max_ln d /\ 1 <= md_qp_wr d /\ 1 <= md_mr d /\ 1 <= md_cqe d /\ md_cqe d < mcqe (msizes buf d).
Proof. exists (256 * 1024 * 1024), {| min_ls := 6; max_ls := 13; min_ln := 3; max_ln := 16; md_qp_wr := 32768; md_mr := 16777216; md_cqe := 4194303 |}. vm_compute. repeat split; discriminate. Qed.

(** *** Examples, and what goes wrong *)
Definition ex_mc : mconf := {| m_d := {| d_w := {| bufsize := 40; depth := 2; disks := 2 |}; snaplen := 6; max_records := 3; n_chunks := 2; count := 4; stamps := true |}; stride := 4 |}.
Definition ex_sto : nat -> nat -> Z := fun _ _ => 99.
Definition ex_ent : nat -> nat -> entry := fun _ _ => {| e_sec := 7; e_nsec := 7; e_incl := 1; e_orig := 1; e_off := 50; e_len := 9 |}.
Fixpoint sched (fuel : nat) (prio : list dlabel) (c : mconf) (st : dst) : list dlabel :=
  match fuel with
  | O => []
  | S fuel =>
      let go l := match dlstep c st l with Some st' => Some (l, st') | None => None end in
      let pick := fold_right (fun l r => match go l with Some x => Some x | None => r end) None prio in
      match pick with Some (l, st') => l :: sched fuel prio c st' | None => [] end
  end.
Definition ex_prio : list dlabel := [Net true; Coll; Disk 0 DoPop; Disk 1 DoPop; Disk 0 (DoWrite 25); Disk 0 (DoWrite 15); Disk 1 (DoWrite 40); Disk 0 DoReturn; Disk 1 DoReturn; Disk 0 DoExit; Disk 1 DoExit].
Definition after (c : mconf) (st : dst) (ls : list dlabel) : dst := match drun c st ls with Some st' => st' | None => st end.
(** A packet of one stride, one of two that needs the next chunk, an empty one, and one into the first chunk again *)
Definition ex_arrive1 : list dlabel := [HRecv [1; 2; 3] 5000000007; HRecv [] 5000000008; HFill; HRecv [4; 5; 6; 7; 8; 9; 10] 6000000000].
Definition ex_part1 : list dlabel := ex_arrive1 ++ sched 40 ex_prio ex_mc (after ex_mc (dinit ex_mc ex_sto ex_ent ex_wm) ex_arrive1).
Definition ex_arrive2 : list dlabel := [HFill; HRecv [11; 12] 6000000001].
Definition ex_ls : list dlabel := ex_part1 ++ ex_arrive2 ++ sched 200 ex_prio ex_mc (after ex_mc (dinit ex_mc ex_sto ex_ent ex_wm) (ex_part1 ++ ex_arrive2)).
Example C71_conf_ex : mconf_ok ex_mc. Proof. repeat split; cbn; try lia; unfold no_limit; lia. Qed.
Example C71_ex : Forall label_ok ex_ls /\ exists st, drun ex_mc (dinit ex_mc ex_sto ex_ent ex_wm) ex_ls = Some st /\ w_pc (wr st) = WClosed /\ w_stop (wr st) = false /\ packets st = 4 /\ bytes st = 12 /\
  parse_pcap (content (w_file (wr st))) = Some (6, [{| c_sec := 5; c_nsec := 7; c_orig := 3; c_data := [1; 2; 3] |}; {| c_sec := 5; c_nsec := 8; c_orig := 0; c_data := [] |}; {| c_sec := 6; c_nsec := 0; c_orig := 7; c_data := [4; 5; 6; 7; 8; 9] |}; {| c_sec := 6; c_nsec := 1; c_orig := 2; c_data := [11; 12] |}]).
Proof.
  split.
  - apply Forall_forall. intros l Hl. destruct l; try exact Logic.I; [|exfalso; revert Hl; vm_compute; intuition discriminate].
    assert (X : In (pkt, ns) (received ex_ls)) by (unfold received; apply in_flat_map; eexists; split; [exact Hl|now left]). assert (E : received ex_ls = [([1; 2; 3], 5000000007); ([], 5000000008); ([4; 5; 6; 7; 8; 9; 10], 6000000000); ([11; 12], 6000000001)]) by (vm_compute; reflexivity). rewrite E in X. cbn [In] in X. cbn [label_ok]. destruct X as [X|[X|[X|[X|[]]]]]; injection X as <- <-; lia.
  - eexists. split; [vm_compute; reflexivity|]. repeat split; vm_compute; reflexivity.
Qed.
(** A point of an execution at which the collector reads a chunk while the adapter still receives *)
Definition ex_mid : list dlabel := [HRecv [1; 2; 3] 5000000007; HRecv [] 5000000008; HFill] ++ sched 19 ex_prio ex_mc (after ex_mc (dinit ex_mc ex_sto ex_ent ex_wm) [HRecv [1; 2; 3] 5000000007; HRecv [] 5000000008; HFill]).
Example C71_mid_ex : exists st st' k i, drun ex_mc (dinit ex_mc ex_sto ex_ent ex_wm) ex_mid = Some st /\ coll st = CIov k i /\ k_n k = 2%nat /\ dlstep ex_mc st (HRecv [4; 5; 6; 7; 8; 9; 10] 6000000000) = Some st'.
Proof. eexists _, _, _, _. split; [vm_compute; reflexivity|]. split; [cbn; reflexivity|]. split; reflexivity. Qed.
Example C71_sizes_ex : msizes (64 * 1024 * 1024) {| min_ls := 6; max_ls := 13; min_ln := 3; max_ln := 16; md_qp_wr := 32768; md_mr := 16; md_cqe := 4194303 |} = (32768, 16, 2097152).
Proof. reflexivity. Qed.

(** A work request that fails makes the file wrong: the adapter is done with the chunk, but the network thread goes on
    with it, and the records of the packets that follow refer to its memory, not to that of the chunk they are in. *)
Definition lost_arrive : list dlabel := [HFail; HRecv [1; 2; 3] 5000000007; HRecv [4] 5000000008] ++ repeat (Net true) 8 ++ [Sig].
Definition lost_ls : list dlabel := lost_arrive ++ sched 200 ex_prio ex_mc (after ex_mc (dinit ex_mc ex_sto ex_ent ex_wm) lost_arrive).
Theorem C71_failed_receive_refuted : exists ls st, drun ex_mc (dinit ex_mc ex_sto ex_ent ex_wm) ls = Some st /\ w_pc (wr st) = WClosed /\ errors st = 1 /\ packets st = 2 /\
  (exists r, parse_pcap (content (w_file (wr st))) = Some (6, r) /\ length r = 2%nat /\ forall x, In x (received ls) -> ~ In (capture true 6 x) r).
Proof.
  exists lost_ls. eexists. split; [vm_compute; reflexivity|]. split; [reflexivity|]. split; [reflexivity|]. split; [reflexivity|]. eexists. split; [vm_compute; reflexivity|]. split; [reflexivity|]. intros x Hx. assert (E : received lost_ls = [([1; 2; 3], 5000000007); ([4], 5000000008)]) by (vm_compute; reflexivity). rewrite E in Hx. cbn [In] in Hx. destruct Hx as [<-|[<-|[]]]; vm_compute; intuition discriminate.
Qed.

Print Assumptions C71_file.
Print Assumptions C71_count.
Print Assumptions C71_undisturbed.
Print Assumptions C71_capacity.
Print Assumptions C71_progress.
Print Assumptions C71_sizes.
Print Assumptions C71_sizes_cqe_refuted.
Print Assumptions C71_failed_receive_refuted.
