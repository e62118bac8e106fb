(** Invariant of the UDP writer. *)
From Coq Require Import ZArith List Bool Arith Lia.
From Verif Require Import Base ConcBase GsoModel GsoSpec.
Import ListNotations.
Open Scope Z_scope.

Definition nbufs (r : list pkt) : nat := length (flat_map k_bufs r).
Definition rbytes (r : list pkt) : list Z := concat (map k_bytes r).
Definition rsize (r : list pkt) : Z := zlen (rbytes r).

(** Segment sizes of a run of packets in one message *)
Fixpoint fits (g : Z) (r : list pkt) : Prop :=
  match r with
  | [] => False
  | [p] => True
  | p :: r' => k_size p = g /\ fits g r'
  end.
Definition good_run (g : Z) (r : list pkt) : Prop :=
  fits g r /\ (exists d, Forall (fun p => k_sub p = d) r) /\ (rsize r <= 65535 \/ length r = 1%nat).

Definition flags_of (runs : list (list pkt)) : list bool := flat_map (fun r => false :: repeat true (length r - 1)) runs.
Definition head_sub (r : list pkt) : nat := match r with p :: _ => k_sub p | [] => 0%nat end.
Fixpoint descs (base : nat) (runs : list (list pkt)) : list msg :=
  match runs with
  | [] => []
  | r :: rs => {| g_iov := base; g_n := nbufs r; g_sub := head_sub r |} :: descs (base + nbufs r) rs
  end.

Lemma flat_map_app' {A B} (f : A -> list B) l1 l2 : flat_map f (l1 ++ l2) = flat_map f l1 ++ flat_map f l2.
Proof. induction l1; cbn [flat_map app]; [reflexivity|]. now rewrite IHl1, app_assoc. Qed.
Lemma nbufs_app a b : nbufs (a ++ b) = (nbufs a + nbufs b)%nat.
Proof. unfold nbufs. now rewrite flat_map_app', app_length. Qed.
Lemma rbytes_app a b : rbytes (a ++ b) = rbytes a ++ rbytes b.
Proof. unfold rbytes. now rewrite map_app, concat_app. Qed.
Lemma rbytes_1 p : rbytes [p] = k_bytes p. Proof. unfold rbytes. cbn [map concat]. apply app_nil_r. Qed.
Lemma rsize_snoc r p : rsize (r ++ [p]) = rsize r + k_size p.
Proof. unfold rsize. now rewrite rbytes_app, zlen_app, rbytes_1. Qed.
Lemma nbufs_1 p : nbufs [p] = length (k_bufs p). Proof. unfold nbufs. cbn [flat_map]. now rewrite app_nil_r. Qed.
Lemma descs_snoc rs : forall base r, descs base (rs ++ [r]) = descs base rs ++ [{| g_iov := (base + nbufs (concat rs))%nat; g_n := nbufs r; g_sub := head_sub r |}].
Proof.
  induction rs as [|a rs IH]; intros base r; cbn [app descs concat]; [unfold nbufs at 1; cbn; now rewrite Nat.add_0_r|]. rewrite IH, nbufs_app. now rewrite Nat.add_assoc.
Qed.
Lemma length_descs rs : forall base, length (descs base rs) = length rs.
Proof. induction rs; intro base; cbn; [reflexivity|]. now rewrite IHrs. Qed.
Lemma flags_snoc rs r : flags_of (rs ++ [r]) = flags_of rs ++ false :: repeat true (length r - 1).
Proof. unfold flags_of. rewrite flat_map_app'. cbn [flat_map]. now rewrite app_nil_r. Qed.
Lemma fits_ne g r : fits g r -> r <> []. Proof. now destruct r. Qed.
Lemma fits_snoc g : forall r q p, fits g (r ++ [q]) -> k_size q = g -> fits g ((r ++ [q]) ++ [p]).
Proof.
  induction r as [|x r IH]; intros q p F E; [now split|]. cbn [app] in *. destruct (r ++ [q]) as [|y m] eqn:Er; [now destruct r|]. cbn [app fits] in *. destruct F as [F1 F2].
  split; [exact F1|]. specialize (IH q p). rewrite Er in IH. cbn [app fits] in IH. now apply IH.
Qed.

Lemma firstn_skipn_upd {A} : forall (l : list A) a k x, (a + k < length l)%nat -> firstn (S k) (skipn a (upd l (a + k) x)) = firstn k (skipn a l) ++ [x].
Proof.
  induction l as [|y l IH]; intros a k x H; [cbn in H; lia|]. destruct a as [|a].
  - cbn [skipn Nat.add]. destruct k as [|k]; [reflexivity|]. cbn [upd firstn app]. f_equal. specialize (IH 0%nat k x). cbn [skipn Nat.add length] in *. apply IH. lia.
  - cbn [skipn Nat.add upd length] in *. apply IH. lia.
Qed.
Lemma firstn_skipn_upd_out {A} : forall (l : list A) a k i x, (i < a \/ a + k <= i)%nat -> firstn k (skipn a (upd l i x)) = firstn k (skipn a l).
Proof.
  induction l as [|y l IH]; intros a k i x H; [now destruct i|]. destruct i as [|i]; destruct a as [|a]; cbn [upd skipn].
  - replace k with 0%nat by lia. reflexivity.
  - reflexivity.
  - destruct k as [|k]; [reflexivity|]. cbn [firstn]. f_equal. specialize (IH 0%nat k i x). cbn [skipn] in IH. apply IH. lia.
  - apply IH. lia.
Qed.

Record built (pk : list pkt) (gso : Z) (first fm base0 : nat) (i : nat) (ms : Z) (iov m : nat) (msgs : list msg) (mrg : list bool) (runs : list (list pkt)) : Prop := {
  b_pk : concat runs = firstn (i - first) (skipn first pk);
  b_flags : firstn (i - first) (skipn first mrg) = flags_of runs;
  b_msgs : firstn (length runs) (skipn fm msgs) = descs base0 runs;
  b_m : m = (fm + length runs)%nat;
  b_iov : iov = (base0 + nbufs (concat runs))%nat;
  b_ms : runs <> [] -> ms = rsize (last runs []);
  b_good : Forall (good_run gso) runs;
  b_i : (first <= i)%nat; b_ne : (first < i)%nat -> runs <> [] }.

Lemma firstn_S_nth {A} : forall (l : list A) n x, nth_error l n = Some x -> firstn (S n) l = firstn n l ++ [x].
Proof. induction l as [|y l IH]; intros [|n] x H; cbn in H; try discriminate; [now injection H as ->|]. cbn [firstn app]. f_equal. now apply IH. Qed.
Lemma nth_error_skipn {A} : forall (l : list A) a n, nth_error (skipn a l) n = nth_error l (a + n).
Proof. induction l as [|y l IH]; intros [|a] n; cbn [skipn nth_error Nat.add]; try reflexivity; [now destruct n|apply IH]. Qed.
Lemma last_snoc' {A} (l : list A) x d : last (l ++ [x]) d = x.
Proof. induction l as [|y l IH]; [reflexivity|]. cbn [app]. destruct (l ++ [x]) eqn:E; [now destruct l|]. exact IH. Qed.
Lemma concat_snoc {A} (l : list (list A)) x : concat (l ++ [x]) = concat l ++ x.
Proof. rewrite concat_app. cbn [concat]. now rewrite app_nil_r. Qed.
Lemma runs_length_le gso runs : Forall (good_run gso) runs -> (length runs <= length (concat runs))%nat.
Proof. induction 1 as [|r rs [F _] _ IH]; cbn [concat length]; [lia|]. rewrite app_length. apply fits_ne in F. destruct r; [easy|]. cbn [length]. lia. Qed.

Lemma prepare_built pk gso first fm base0 : (fm <= first)%nat -> (length pk <= max_batch)%nat -> forall n i ms iov m msgs mrg runs,
  built pk gso first fm base0 i ms iov m msgs mrg runs -> length msgs = max_batch -> length mrg = max_batch -> (i + n)%nat = length pk ->
  exists m' msgs' mrg' ms' iov' runs', prepare pk gso first n i ms iov m msgs mrg = Some (m', msgs', mrg') /\ length msgs' = max_batch /\ length mrg' = max_batch /\
    built pk gso first fm base0 (length pk) ms' iov' m' msgs' mrg' runs'.
Proof.
  intros Hfm HB. induction n as [|n IH]; intros i ms iov m msgs mrg runs BU LM LG Hn.
  - exists m, msgs, mrg, ms, iov, runs. cbn [prepare]. replace (length pk) with i by lia. auto.
  - cbn [prepare]. destruct (nth_error pk i) as [p|] eqn:Ep; [|apply nth_error_None in Ep; lia]. destruct BU as [B1 B2 B3 B4 B5 B6 B7 B8 B9].
    set (fresh := (i =? first)%nat || match nth_error pk (i - 1) with Some q => negb (k_size q =? gso) || negb (k_sub p =? k_sub q)%nat | None => true end || (max_gso_message_size <? ms + k_size p)).
    assert (Lrun : (length runs <= i - first)%nat). { pose proof (runs_length_le _ _ B7) as X. rewrite B1 in X. rewrite firstn_length in X. lia. }
    assert (Np : nth_error (skipn first pk) (i - first) = Some p) by (rewrite nth_error_skipn; replace (first + (i - first))%nat with i by lia; exact Ep).
    assert (Si : (S i - first)%nat = S (i - first)) by lia.
    destruct fresh eqn:Ef.
    + destruct (Nat.ltb_spec m max_batch) as [C1|C1]; [|lia]. destruct (Nat.ltb_spec i max_batch) as [C2|C2]; [|lia]. cbn [andb].
      apply (IH _ _ _ _ _ _ (runs ++ [[p]])); [|now rewrite upd_length|now rewrite upd_length|lia]. constructor.
      * rewrite concat_snoc, B1, Si. symmetry. now apply firstn_S_nth.
      * rewrite flags_snoc. change (length [p] - 1)%nat with 0%nat. cbn [repeat]. rewrite Si. replace i with (first + (i - first))%nat at 2 by lia. rewrite firstn_skipn_upd by lia. now rewrite B2.
      * rewrite app_length. cbn [length]. rewrite Nat.add_1_r, B4, firstn_skipn_upd by lia. rewrite B3, descs_snoc. cbn [head_sub]. now rewrite nbufs_1, <- B5.
      * rewrite app_length. cbn [length]. lia.
      * rewrite concat_snoc, nbufs_app, nbufs_1. lia.
      * intros _. rewrite last_snoc'. unfold rsize. now rewrite rbytes_1.
      * apply Forall_app. split; [exact B7|]. constructor; [|constructor]. split; [exact Logic.I|]. split; [exists (k_sub p); now constructor|]. now right.
      * lia.
      * intros _ X. now apply app_eq_nil in X.
    + unfold fresh in Ef. apply orb_false_iff in Ef as [Ef E3]. apply orb_false_iff in Ef as [E1 E2]. apply Nat.eqb_neq in E1. apply Z.ltb_ge in E3. unfold max_gso_message_size in E3.
      assert (NE : runs <> []) by (apply B9; lia). destruct (exists_last NE) as (rs & r & ->). clear NE. rewrite last_snoc' in B6. assert (Ems : ms = rsize r) by (apply B6; intro X; now apply app_eq_nil in X). clear B6 B9.
      apply Forall_app in B7 as [B7a B7b]. inversion B7b as [|? ? GR _]; subst. clear B7b. destruct GR as (F & (d & SD) & SZ). pose proof (fits_ne _ _ F) as NEr. destruct (exists_last NEr) as (r0 & q & Er). 
      destruct (nth_error pk (i - 1)) as [q'|] eqn:Eq; [|discriminate]. apply orb_false_iff in E2 as [E2a E2b]. apply negb_false_iff, Z.eqb_eq in E2a. apply negb_false_iff, Nat.eqb_eq in E2b.
      assert (q' = q).
      { assert (X : nth_error (concat (rs ++ [r])) (i - first - 1) = Some q').
        { rewrite B1, nth_error_firstn_lt by lia. rewrite nth_error_skipn. replace (first + (i - first - 1))%nat with (i - 1)%nat by lia. exact Eq. }
        rewrite concat_snoc, Er, app_assoc in X. assert (L : length (concat (rs ++ [r])) = (i - first)%nat) by (rewrite B1, firstn_length_le; [reflexivity|rewrite skipn_length; lia]).
        rewrite concat_snoc, Er, app_assoc, app_length in L. cbn [length] in L. rewrite nth_error_app2 in X by lia. replace (i - first - 1 - length (concat rs ++ r0))%nat with 0%nat in X by lia. now injection X. }
      subst q'. rewrite app_length in *. cbn [length] in *. replace (fm + (length rs + 1))%nat with (S (fm + length rs)) by lia.
      assert (Hh : nth_error msgs (fm + length rs) = Some {| g_iov := (base0 + nbufs (concat rs))%nat; g_n := nbufs r; g_sub := head_sub r |}).
      { assert (X : nth_error (firstn (length rs + 1) (skipn fm msgs)) (length rs) = Some {| g_iov := (base0 + nbufs (concat rs))%nat; g_n := nbufs r; g_sub := head_sub r |}).
        { rewrite B3, descs_snoc, nth_error_app2 by (rewrite length_descs; lia). now rewrite length_descs, Nat.sub_diag. }
        rewrite nth_error_firstn_lt in X by lia. now rewrite nth_error_skipn in X. }
      rewrite Hh. destruct (Nat.ltb_spec i max_batch) as [C2|C2]; [|lia]. cbn [g_iov g_n g_sub].
      apply (IH _ _ _ _ _ _ (rs ++ [r ++ [p]])); [|now rewrite upd_length|now rewrite upd_length|lia]. constructor.
      * rewrite !concat_snoc in *. rewrite app_assoc, B1, Si. symmetry. now apply firstn_S_nth.
      * rewrite flags_snoc in *. rewrite Si. replace i with (first + (i - first))%nat at 2 by lia. rewrite firstn_skipn_upd by lia. rewrite B2, <- app_assoc. f_equal. cbn [app]. f_equal.
        rewrite app_length. cbn [length]. replace (length r + 1 - 1)%nat with (S (length r - 1)) by (destruct r; [easy|cbn [length]; lia]). symmetry. apply repeat_cons.
      * rewrite app_length. cbn [length]. rewrite Nat.add_1_r, firstn_skipn_upd by lia. rewrite descs_snoc. rewrite descs_snoc, Nat.add_1_r in B3.
        assert (X : firstn (length rs) (skipn fm msgs) = descs base0 rs).
        { apply (f_equal (firstn (length rs))) in B3. rewrite firstn_firstn in B3. replace (Nat.min (length rs) (S (length rs))) with (length rs) in B3 by lia. rewrite B3.
          rewrite firstn_app, length_descs, Nat.sub_diag. cbn [firstn]. rewrite app_nil_r. rewrite <- (length_descs rs base0) at 1. apply firstn_all. }
        rewrite X. f_equal. f_equal. rewrite nbufs_app, nbufs_1. f_equal. destruct r; [easy|reflexivity].
      * rewrite app_length. cbn [length]. lia.
      * rewrite !concat_snoc, !nbufs_app, nbufs_1. lia.
      * intros _. rewrite last_snoc', rsize_snoc. reflexivity.
      * apply Forall_app. split; [exact B7a|]. constructor; [|constructor]. split; [rewrite Er; apply fits_snoc; [now rewrite <- Er|exact E2a]|]. split.
        -- exists d. apply Forall_app. split; [exact SD|]. constructor; [|constructor]. rewrite Forall_forall in SD. rewrite E2b. apply SD. rewrite Er. apply in_or_app. right. now left.
        -- left. rewrite rsize_snoc. lia.
      * lia.
      * intros _ X. now apply app_eq_nil in X.
Qed.

(** *** Cutting a run gives its packets *)
Lemma fits_nonpos g r : g <= 0 -> Forall (fun p => 0 < k_size p) r -> fits g r -> length r = 1%nat.
Proof. intros G P F. destruct r as [|p [|q r]]; [easy|reflexivity|]. destruct F as [F _]. inversion P; subst. lia. Qed.
Lemma cut_run g : 0 < g -> forall r fuel, Forall (fun p => 0 < k_size p <= g) r -> fits g r -> (length (rbytes r) <= fuel)%nat -> cut fuel g (rbytes r) = map k_bytes r.
Proof.
  intro G. induction r as [|p r IH]; intros fuel P F L; [easy|]. inversion P as [|? ? P1 P2]; subst. destruct r as [|q r].
  - rewrite rbytes_1 in *. cbn [map]. unfold k_size in P1. destruct fuel as [|f]; cbn [cut]; [reflexivity|]. destruct (Z.leb_spec (zlen (k_bytes p)) g); [reflexivity|lia].
  - destruct F as [F1 F2]. change (p :: q :: r) with ([p] ++ (q :: r)) in *. rewrite rbytes_app, rbytes_1 in *. unfold k_size in *. assert (Hq : 0 < zlen (rbytes (q :: r))).
    { change (q :: r) with ([q] ++ r). rewrite rbytes_app, rbytes_1, zlen_app. inversion P2; subst. unfold k_size in *. pose proof (zlen_nonneg (rbytes r)). lia. }
    rewrite app_length in L. unfold zlen in F1, P1, Hq. destruct fuel as [|f]; [lia|]. cbn [cut]. rewrite zlen_app. unfold zlen at 1 2. destruct (Z.leb_spec (Z.of_nat (length (k_bytes p)) + Z.of_nat (length (rbytes (q :: r)))) g); [lia|].
    change (map k_bytes ([p] ++ q :: r)) with (k_bytes p :: map k_bytes (q :: r)). f_equal.
    + rewrite slice_app_l by (unfold zlen; lia). replace g with (zlen (k_bytes p)) by (unfold zlen; lia). apply slice_full.
    + rewrite skipn_app. rewrite skipn_all2 by lia. replace (Z.to_nat g - length (k_bytes p))%nat with 0%nat by lia. cbn [skipn app]. apply IH; [exact P2|exact F2|lia].
Qed.
Lemma segments_run g r : Forall (fun p => 0 < k_size p) r -> (0 < g -> Forall (fun p => k_size p <= g) r) -> fits g r -> segments g (rbytes r) = map k_bytes r.
Proof.
  intros P M F. unfold segments. destruct (Z.leb_spec g 0) as [C|C].
  - pose proof (fits_nonpos g r C P F) as L. destruct r as [|p [|]]; cbn [length] in L; try lia. now rewrite rbytes_1.
  - apply cut_run; [exact C| |exact F|lia]. specialize (M C). clear - P M. induction r; constructor; inversion P; inversion M; subst; auto.
Qed.

(** *** The invariant *)
Definition on_msg (r : list pkt) : Prop := (exists d, Forall (fun p => k_sub p = d) r) /\ (rsize r <= 65535 \/ length r = 1%nat).
Record core (s : ust) (runs : list (list pkt)) : Prop := {
  c_fm : (u_fm s <= u_fp s)%nat; c_fp : (u_fp s <= u_lp s)%nat; c_lp : u_lp s = length (u_pk s); c_batch : (length (u_pk s) <= max_batch)%nat;
  c_lmsgs : length (u_msgs s) = max_batch; c_lmrg : length (u_merged s) = max_batch;
  c_iov : u_iov s = flat_map k_bufs (u_pk s);
  c_pos : Forall (fun p => 0 < k_size p) (u_pk s);
  c_runs : concat runs = skipn (u_fp s) (u_pk s);
  c_flags : firstn (u_lp s - u_fp s) (skipn (u_fp s) (u_merged s)) = flags_of runs;
  c_msgs : firstn (length runs) (skipn (u_fm s) (u_msgs s)) = descs (nbufs (firstn (u_fp s) (u_pk s))) runs;
  c_lm : u_lm s = (u_fm s + length runs)%nat;
  c_ne : Forall (fun r => r <> []) runs;
  c_good : Forall on_msg runs;
  c_cut : Forall (fun r => segments (u_sock s) (rbytes r) = map k_bytes r) runs;
  c_hist : exists dn, u_hist s = dn ++ skipn (u_fp s) (u_pk s) /\ length (u_res s) = length dn /\ u_wire s = datagrams dn (u_res s) /\ u_groups s = zlen (filter k_last dn) }.
Definition mode (s : ust) : Prop :=
  u_cur s = gso_disabled /\ u_sock s = 0 \/ 0 <= u_cur s /\ u_sock s = u_cur s \/ u_cur s = gso_probe /\ u_sock s = 0 /\ (u_fm s < u_lm s)%nat.

Lemma adv_run mrg lp : forall j n fp, (j <= n)%nat -> (S fp + j <= lp)%nat -> (forall i, (i < j)%nat -> nth (S fp + i) mrg false = true) -> ((S fp + j < lp)%nat -> nth (S fp + j) mrg false = false) -> adv n mrg lp fp = (S fp + j)%nat.
Proof.
  induction j as [|j IH]; intros n fp Hn Hl HT HF.
  - rewrite Nat.add_0_r in *. destruct n; cbn [adv]; [reflexivity|]. destruct (Nat.ltb_spec (S fp) lp) as [C|C]; [rewrite HF by exact C|]; reflexivity.
  - destruct n as [|n]; [lia|]. cbn [adv]. destruct (Nat.ltb_spec (S fp) lp) as [C|C]; [|lia]. pose proof (HT 0%nat ltac:(lia)) as T0. rewrite Nat.add_0_r in T0. rewrite T0. cbn [andb]. rewrite IH; [lia|lia|lia| |].
    + intros i Hi. specialize (HT (S i) ltac:(lia)). now replace (S (S fp) + i)%nat with (S fp + S i)%nat by lia.
    + intro X. replace (S (S fp) + j)%nat with (S fp + S j)%nat by lia. apply HF. lia.
Qed.
Lemma nth_firstn_skipn (l : list bool) a n i : (i < n)%nat -> nth (a + i) l false = nth i (firstn n (skipn a l)) false.
Proof.
  intro H. revert a l. assert (G : forall l m, (i < m)%nat -> nth i (firstn m l) false = nth i l false).
  { clear. induction i as [|i IH]; intros [|x l] [|m] H; try lia; cbn [firstn nth]; auto. apply IH. lia. }
  intros a l. rewrite G by exact H. revert a. induction l as [|x l IH]; intros [|a]; cbn [skipn Nat.add nth]; auto. now destruct i.
Qed.
Lemma nth_repeat_true i n rest : (i < n)%nat -> nth i (repeat true n ++ rest) false = true.
Proof. revert i. induction n as [|n IH]; intros [|i] H; try lia; cbn [repeat app nth]; [reflexivity|]. apply IH. lia. Qed.
Lemma nth_repeat_next n rest : nth n (repeat true n ++ rest) false = nth 0 rest false.
Proof. induction n; cbn [repeat app nth]; auto. Qed.
Lemma flags_head rs : nth 0 (flags_of rs) false = false. Proof. now destruct rs. Qed.
Lemma length_flags rs : Forall (fun r : list pkt => r <> []) rs -> length (flags_of rs) = length (concat rs).
Proof. induction 1 as [|r rs N _ IH]; [reflexivity|]. unfold flags_of in *. cbn [flat_map concat length]. cbn [app length]. rewrite !app_length, repeat_length, IH. destruct r; [easy|]. cbn [length]. lia. Qed.

Lemma datagrams_app a ra b rb : length ra = length a -> datagrams (a ++ b) (ra ++ rb) = datagrams a ra ++ datagrams b rb.
Proof. revert ra. induction a as [|p a IH]; intros [|o ra] H; try discriminate; [reflexivity|]. cbn [app datagrams]. injection H as H. destruct o; rewrite (IH _ H); reflexivity. Qed.
Lemma datagrams_sent r d : Forall (fun p => k_sub p = d) r -> datagrams r (repeat Sent (length r)) = map (pair d) (map k_bytes r).
Proof. induction 1 as [|p r E _ IH]; [reflexivity|]. cbn [length repeat datagrams map]. now rewrite IH, E. Qed.
Lemma datagrams_failed r : datagrams r (repeat Failed (length r)) = [].
Proof. induction r; [reflexivity|]. exact IHr. Qed.
Lemma concat_flat_bufs r : concat (flat_map k_bufs r) = rbytes r.
Proof. unfold rbytes. induction r as [|p r IH]; [reflexivity|]. cbn [flat_map map concat]. now rewrite concat_app, IH. Qed.

Lemma core_next s r rs o : core s (r :: rs) -> core (msg_done o s) rs /\ u_fm (msg_done o s) = S (u_fm s) /\ u_lm (msg_done o s) = u_lm s.
Proof.
  intros [C1 C2 C3 C4 C5 C6 C7 C8 C9 C10 C11 C12 C13 C14 C15 (dn & D1 & D2 & D3 & D4)].
  inversion C13 as [|? ? Nr C13']; subst. inversion C14 as [|? ? Gr C14']; subst. inversion C15 as [|? ? Kr C15']; subst.
  cbn [concat] in C9. assert (Lr : (0 < length r)%nat) by (destruct r; [easy|cbn; lia]).
  assert (LT : (length r + length (concat rs) = u_lp s - u_fp s)%nat) by (rewrite <- app_length, C9, skipn_length; lia).
  assert (A : adv (u_lp s) (u_merged s) (u_lp s) (u_fp s) = (u_fp s + length r)%nat).
  { rewrite (adv_run _ _ (length r - 1)); [lia|lia|lia| |].
    - intros i Hi. replace (S (u_fp s) + i)%nat with (u_fp s + S i)%nat by lia. rewrite (nth_firstn_skipn _ _ (u_lp s - u_fp s)) by lia. rewrite C10. unfold flags_of. cbn [flat_map app nth]. now apply nth_repeat_true.
    - intro X. replace (S (u_fp s) + (length r - 1))%nat with (u_fp s + S (length r - 1))%nat by lia. rewrite (nth_firstn_skipn _ _ (u_lp s - u_fp s)) by lia. rewrite C10. unfold flags_of. cbn [flat_map app nth]. rewrite nth_repeat_next. apply flags_head. }
  assert (R : firstn (length r) (skipn (u_fp s) (u_pk s)) = r) by (rewrite <- C9, firstn_app, Nat.sub_diag, firstn_all; cbn [firstn]; apply app_nil_r).
  assert (SK : skipn (u_fp s + length r) (u_pk s) = concat rs).
  { rewrite <- skipn_skipn', <- C9, skipn_app, skipn_all, Nat.sub_diag. reflexivity. }
  assert (FN : firstn (u_fp s + length r) (u_pk s) = firstn (u_fp s) (u_pk s) ++ r).
  { rewrite <- (firstn_skipn (u_fp s) (u_pk s)) at 1. rewrite firstn_app, firstn_length_le by lia. rewrite firstn_firstn. replace (Nat.min (u_fp s + length r) (u_fp s)) with (u_fp s) by lia. now replace (u_fp s + length r - u_fp s)%nat with (length r) by lia; rewrite R. }
  split; [|split; reflexivity]. unfold msg_done. rewrite A. replace (u_fp s + length r - u_fp s)%nat with (length r) by lia. rewrite R.
  cbn [descs length] in C11. destruct (skipn (u_fm s) (u_msgs s)) as [|h ms] eqn:Em; [discriminate|]. cbn [firstn] in C11. injection C11 as Eh Em'.
  assert (Nh : nth_error (u_msgs s) (u_fm s) = Some h) by (rewrite <- (Nat.add_0_r (u_fm s)), <- nth_error_skipn, Em; reflexivity).
  constructor; cbn [u_cur u_sock u_pk u_merged u_iov u_msgs u_fp u_lp u_fm u_lm u_hist u_wire u_res u_groups]; auto; try lia.
  - rewrite <- skipn_skipn'. replace (u_lp s - (u_fp s + length r))%nat with (u_lp s - u_fp s - length r)%nat by lia. rewrite <- skipn_firstn_comm, C10. unfold flags_of. cbn [flat_map].
    replace (length r) with (length (false :: repeat true (length r - 1))) at 1 by (cbn [length]; rewrite repeat_length; lia). now rewrite skipn_app, skipn_all, Nat.sub_diag.
  - replace (S (u_fm s)) with (u_fm s + 1)%nat by lia. rewrite <- skipn_skipn', Em. cbn [skipn]. rewrite Em', FN, nbufs_app. reflexivity.
  - cbn [length] in C12. lia.
  - exists (dn ++ r). split; [rewrite D1, <- app_assoc; f_equal; rewrite SK; symmetry; exact C9|]. split; [rewrite !app_length, repeat_length; lia|]. split.
    + rewrite datagrams_app by exact D2. destruct o; [|rewrite datagrams_failed, app_nil_r; exact D3]. rewrite Nh, D3. f_equal. destruct Gr as ((d & SD) & _). rewrite (datagrams_sent r d SD). subst h. cbn [g_sub g_n g_iov].
      replace (concat _) with (rbytes r); [rewrite Kr; f_equal; destruct r; [easy|]; inversion SD; subst; reflexivity|].
      rewrite C7. rewrite <- (firstn_skipn (u_fp s) (u_pk s)) at 2. rewrite flat_map_app', skipn_app. unfold nbufs at 2 3. rewrite skipn_all, Nat.sub_diag. cbn [skipn app]. rewrite <- C9, flat_map_app', firstn_app. unfold nbufs. rewrite firstn_all, Nat.sub_diag. cbn [firstn]. rewrite app_nil_r. symmetry. apply concat_flat_bufs.
    + rewrite D4, filter_app, zlen_app. reflexivity.
Qed.

Lemma built0 pk gso first fm base0 ms iov msgs mrg : iov = base0 -> built pk gso first fm base0 first ms iov fm msgs mrg [].
Proof. intros ->. constructor; cbn [length concat firstn flags_of flat_map descs]; rewrite ?Nat.sub_diag; auto; try easy; try lia; try (unfold nbufs; cbn; lia). Qed.

Definition fit_gso (s : ust) (gso : Z) : Prop := gso <= 0 /\ u_sock s = 0 \/ 0 < gso /\ u_sock s = gso /\ Forall (fun p => k_size p <= gso) (u_pk s).

Lemma do_prepare_ok s gso : (u_fm s <= u_fp s)%nat -> (u_fp s <= u_lp s)%nat -> u_lp s = length (u_pk s) -> (length (u_pk s) <= max_batch)%nat -> length (u_msgs s) = max_batch -> length (u_merged s) = max_batch ->
  u_iov s = flat_map k_bufs (u_pk s) -> Forall (fun p => 0 < k_size p) (u_pk s) -> fit_gso s gso ->
  (exists dn, u_hist s = dn ++ skipn (u_fp s) (u_pk s) /\ length (u_res s) = length dn /\ u_wire s = datagrams dn (u_res s) /\ u_groups s = zlen (filter k_last dn)) ->
  exists s' runs, do_prepare gso (nbufs (firstn (u_fp s) (u_pk s))) s = Some s' /\ core s' runs /\ u_cur s' = u_cur s /\ u_sock s' = u_sock s /\ u_fm s' = u_fm s /\ ((u_fp s < u_lp s)%nat -> runs <> []).
Proof.
  intros C1 C2 C3 C4 C5 C6 C7 C8 FG H. unfold do_prepare. set (base := nbufs (firstn (u_fp s) (u_pk s))).
  destruct (prepare_built (u_pk s) gso (u_fp s) (u_fm s) base C1 C4 (u_lp s - u_fp s) (u_fp s) 0 base (u_fm s) (u_msgs s) (u_merged s) []) as (m & msgs & mrg & ms & iov & runs & E & L1 & L2 & B); auto; try lia.
  { now apply built0. }
  rewrite E. eexists. exists runs. split; [reflexivity|]. destruct B as [B1 B2 B3 B4 B5 B6 B7 B8 B9]. split; [|repeat split; auto; rewrite C3 in *; auto].
  assert (RP : concat runs = skipn (u_fp s) (u_pk s)) by (rewrite B1, firstn_all2; [reflexivity|rewrite skipn_length; lia]).
  constructor; cbn [u_cur u_sock u_pk u_merged u_iov u_msgs u_fp u_lp u_fm u_lm u_hist u_wire u_res u_groups]; auto; try (rewrite C3; assumption).
  - eapply Forall_impl; [|exact B7]. intros r [F _]. eapply fits_ne, F.
  - eapply Forall_impl; [|exact B7]. intros r [_ G]. exact G.
  - assert (I : forall r p, In r runs -> In p r -> In p (u_pk s)).
    { intros r p Ir Ip. rewrite <- (firstn_skipn (u_fp s)). apply in_or_app. right. rewrite <- RP. apply in_concat. eauto. }
    apply Forall_forall. intros r Ir. rewrite Forall_forall in B7, C8. destruct (B7 r Ir) as [F _].
    assert (P : Forall (fun p => 0 < k_size p) r) by (apply Forall_forall; eauto).
    destruct FG as [[G1 G2]|(G1 & G2 & G3)].
    + rewrite G2. pose proof (fits_nonpos gso r G1 P F) as L. destruct r as [|p [|]]; cbn [length] in L; try lia. rewrite rbytes_1. reflexivity.
    + rewrite G2. apply segments_run; auto. intros _. apply Forall_forall. intros p Ip. rewrite Forall_forall in G3. eauto.
Qed.

Lemma max_size_ub pks : Forall (fun p => k_size p <= fold_right Z.max 0 (map k_size pks)) pks.
Proof. induction pks as [|p pks IH]; constructor; cbn [map fold_right]; [lia|]. eapply Forall_impl; [|exact IH]. cbn beta. intros. lia. Qed.
Lemma max_size_pos pks : (0 < length pks)%nat -> Forall (fun p => 0 < k_size p) pks -> 0 < fold_right Z.max 0 (map k_size pks).
Proof. destruct pks; cbn; [lia|]. intros _ F. inversion F; subst. lia. Qed.

Definition ginv (s : ust) : Prop := (exists runs, core s runs) /\ mode s.

Lemma msgs_done_core k : forall s runs, core s runs -> (k <= length runs)%nat ->
  core (msgs_done k s) (skipn k runs) /\ u_cur (msgs_done k s) = u_cur s /\ u_sock (msgs_done k s) = u_sock s.
Proof.
  induction k as [|k IH]; intros s runs C L; [auto|]. destruct runs as [|r rs]; [cbn in L; lia|]. cbn [length] in L. cbn [msgs_done skipn].
  destruct (core_next s r rs Sent C) as (C' & _ & _). destruct (IH _ _ C') as (A & B & D); [lia|]. split; [exact A|]. rewrite B, D. split; reflexivity.
Qed.
Lemma core_set_gso c s runs : core s runs -> core (set_gso c (u_sock s) s) runs.
Proof. intros []. constructor; auto. Qed.
Lemma msg_done_gso o s : u_cur (msg_done o s) = u_cur s /\ u_sock (msg_done o s) = u_sock s. Proof. now split. Qed.

Lemma ginv_init : ginv u_init.
Proof.
  split; [exists []|right; left; split; [cbn; unfold gso_inactive; lia|reflexivity]].
  constructor; cbn [u_init u_cur u_sock u_pk u_merged u_iov u_msgs u_fp u_lp u_fm u_lm u_hist u_wire u_res u_groups]; rewrite ?repeat_length; auto; try (cbn; lia); try reflexivity.
  exists []. repeat split.
Qed.

(** A step from a state with the invariant never faults and keeps it. *)
Lemma step_ginv s l : ginv s -> sane s l -> quiet l -> step s l <> Fault /\ forall s', step s l = Ok s' -> ginv s'.
Proof.
  intros ((runs & C) & M) S Q. destruct l as [pks r1 r2|k| |r]; cbn [step].
  - destruct (Nat.eqb_spec (u_fm s) (u_lm s)) as [E|E]; cbn [negb]; [|split; [discriminate|discriminate]].
    destruct (Nat.eqb_spec (length pks) 0) as [E0|E0]; cbn [orb]; [split; discriminate|]. destruct (Nat.ltb_spec max_batch (length pks)) as [E1|E1]; [split; discriminate|].
    destruct S as [S1 S2]. set (mx := fold_right Z.max 0 (map k_size pks)). pose proof (max_size_pos pks ltac:(lia) S1) as MP. pose proof (max_size_ub pks) as MU. fold mx in MP, MU.
    destruct (new_gso mx (u_cur s) (u_sock s) r1 r2) as [cur sock] eqn:EG.
    assert (FG : (cur = gso_disabled /\ sock = 0) \/ (cur = 0 /\ sock = 0) \/ (cur = mx /\ sock = mx)).
    { unfold new_gso in EG. destruct M as [[M1 M2]|[[M1 M2]|(M1 & M2 & M3)]]; [| |lia].
      - rewrite M1, M2 in EG. destruct (Z.eqb_spec mx gso_disabled) as [X|X]; [unfold gso_disabled in X; lia|]. cbn in EG. injection EG as <- <-. now left.
      - destruct (Z.eqb_spec mx (u_cur s)) as [X|X]; cbn [negb andb] in EG; [injection EG as <- <-; right; right; lia|]. destruct (Z.leb_spec 0 (u_cur s)); [|lia].
        destruct r1; [injection EG as <- <-; auto|injection EG as <- <-; left; auto|]. cbn [quiet] in Q. subst r2. cbn [set_ok] in EG. injection EG as <- <-. auto. }
    destruct C as [C1 C2 C3 C4 C5 C6 C7 C8 C9 C10 C11 C12 C13 C14 C15 (dn & D1 & D2 & D3 & D4)].
    assert (RN : runs = []) by (destruct runs; [reflexivity|cbn [length] in C12; lia]). subst runs. cbn [concat] in C9.
    match goal with |- of_opt (do_prepare cur 0 ?s0) <> _ /\ _ => destruct (do_prepare_ok s0 cur) as (s' & runs & EP & C' & F1 & F2 & F3 & F4) end;
      cbn [u_cur u_sock u_pk u_merged u_iov u_msgs u_fp u_lp u_fm u_lm u_hist u_wire u_res u_groups]; auto; try lia.
    { destruct FG as [[-> ->]|[[-> ->]|[-> ->]]]; [left; unfold gso_disabled; cbn; lia|left; cbn; lia|right; cbn; auto]. }
    { exists dn. cbn [skipn]. rewrite D1, <- C9, app_nil_r. auto. }
    cbn [u_cur u_sock u_pk u_merged u_iov u_msgs u_fp u_lp u_fm u_lm u_hist u_wire u_res u_groups firstn] in EP, F1, F2, F3, F4. change (nbufs []) with 0%nat in EP. rewrite EP. cbn [of_opt]. split; [discriminate|]. intros s'' [= <-].
    split; [exists runs; exact C'|]. unfold mode. rewrite F1, F2. destruct FG as [[-> ->]|[[-> ->]|[-> ->]]]; [now left|right; left; lia|right; left; lia].
  - destruct (Nat.leb_spec 1 k) as [K1|K1]; [|split; discriminate]. destruct (Nat.leb_spec (u_fm s + k) (u_lm s)) as [K2|K2]; cbn [andb]; [|split; discriminate]. split; [discriminate|]. intros s' [= <-].
    assert (Lk : (k <= length runs)%nat) by (pose proof (c_lm s runs C); lia). destruct (msgs_done_core k s runs C Lk) as (C' & E1 & E2).
    destruct (Z.eqb_spec (u_cur s) gso_probe) as [P|P].
    + split; [exists (skipn k runs); now apply core_set_gso|]. left. split; [reflexivity|]. cbn [set_gso u_sock]. rewrite E2. destruct M as [[M1 M2]|[[M1 M2]|(M1 & M2 & M3)]]; auto. rewrite P in M1. unfold gso_probe in M1. lia.
    + split; [eauto|]. unfold mode. rewrite E1, E2. destruct M as [M|[M|(M1 & _)]]; auto. contradiction.
  - destruct (u_fm s <? u_lm s)%nat; split; try discriminate. intros s' [= <-]. split; [eauto|exact M].
  - destruct (Nat.ltb_spec (u_fm s) (u_lm s)) as [K|K]; cbn [negb]; [|split; discriminate]. destruct runs as [|r0 rs]; [pose proof (c_lm s [] C) as X; cbn [length] in X; lia|].
    destruct (Z.eqb_spec (u_cur s) gso_probe) as [P|P].
    + split; [discriminate|]. intros s' [= <-]. destruct (core_next _ r0 rs Failed (core_set_gso gso_inactive s _ C)) as (C' & _). split; [eauto|]. right; left. cbn [msg_done set_gso u_cur u_sock]. unfold gso_inactive. split; [lia|].
      destruct M as [[M1 M2]|[[M1 M2]|(M1 & M2 & M3)]]; auto. rewrite P in M1. unfold gso_probe in M1. lia.
    + assert (DF : ginv (msg_done Failed s)). { destruct (core_next s r0 rs Failed C) as (C' & _). split; [eauto|]. unfold mode. cbn [msg_done u_cur u_sock]. destruct M as [M|[M|(M1 & _)]]; auto. contradiction. }
      destruct (Z.ltb_spec 0 (u_cur s)) as [G|G]; [|split; [discriminate|intros s' [= <-]; exact DF]]. destruct (set_ok r); [|split; [discriminate|intros s' [= <-]; exact DF]].
      destruct C as [C1 C2 C3 C4 C5 C6 C7 C8 C9 C10 C11 C12 C13 C14 C15 CH].
      assert (Nh : nth_error (u_msgs s) (u_fm s) = Some {| g_iov := nbufs (firstn (u_fp s) (u_pk s)); g_n := nbufs r0; g_sub := head_sub r0 |}).
      { cbn [descs length] in C11. rewrite <- (Nat.add_0_r (u_fm s)), <- nth_error_skipn. destruct (skipn (u_fm s) (u_msgs s)); [discriminate|]. cbn [firstn] in C11. injection C11 as -> _. reflexivity. }
      rewrite Nh. cbn [g_iov]. destruct (do_prepare_ok (set_gso gso_probe 0 s) 0) as (s' & runs & EP & C' & F1 & F2 & F3 & F4); auto.
      { left. cbn. lia. }
      cbn [set_gso u_cur u_sock u_pk u_fm u_fp u_lp] in EP, F1, F2, F3, F4. rewrite EP. cbn [of_opt]. split; [discriminate|]. intros s'' [= <-]. split; [eauto|]. right; right. rewrite F1, F2. split; [reflexivity|]. split; [reflexivity|].
      rewrite (c_lm _ _ C'). assert (runs <> []); [|destruct runs; [easy|cbn [length]; lia]]. apply F4. apply (f_equal (@length _)) in C9. cbn [concat] in C9. rewrite app_length, skipn_length in C9. inversion C13; subst. destruct r0; [easy|]. cbn [length] in C9. lia.
Qed.
Lemma reach_ginv s : u_reach quiet s -> ginv s.
Proof. induction 1 as [|s l s' _ IH S Q E]; [apply ginv_init|]. now apply (step_ginv s l IH S Q). Qed.
