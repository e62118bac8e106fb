(** C41: segmentation offload is transparent.  C54: so is receive offload. *)
From Coq Require Import ZArith List Bool Arith Lia.
From Verif Require Import Base ConcBase GsoModel GsoSpec GsoProofs.
Import ListNotations.
Open Scope Z_scope.

(** However the kernel answers: the datagrams on the wire are the packets taken
    from the stream that are reported as sent, each to its own destination, in
    order; packets are dealt with in order, and the groups reported as complete
    are those whose last packet has been dealt with. *)
Theorem C41_transparent s : u_reach quiet s -> exists dn rest, u_hist s = dn ++ rest /\ length (u_res s) = length dn /\
  u_wire s = datagrams dn (u_res s) /\ u_groups s = zlen (filter k_last dn).
Proof. intro R. destruct (reach_ginv s R) as ((runs & C) & _). destruct (c_hist s runs C) as (dn & H1 & H2 & H3 & H4). eauto 8. Qed.
(** When the batch is done, nothing is left over. *)
Theorem C41_complete s : u_reach quiet s -> u_fm s = u_lm s -> length (u_res s) = length (u_hist s) /\ u_wire s = datagrams (u_hist s) (u_res s) /\ u_groups s = zlen (filter k_last (u_hist s)).
Proof.
  intros R E. destruct (reach_ginv s R) as ((runs & C) & _). destruct (c_hist s runs C) as (dn & H1 & H2 & H3 & H4). pose proof (c_lm s runs C) as L. pose proof (c_runs s runs C) as P.
  destruct runs; [|cbn [length] in L; lia]. cbn [concat] in P. rewrite <- P, app_nil_r in H1. subst dn. auto.
Qed.
(** No message of several packets exceeds the limits of the kernel (65535 bytes, 64 segments). *)
Theorem C41_limits s j h : u_reach quiet s -> (u_fm s <= j < u_lm s)%nat -> nth_error (u_msgs s) j = Some h ->
  exists r, (exists before after, u_pk s = before ++ r ++ after) /\ msg_bytes s h = concat (map k_bytes r) /\
    segments (u_sock s) (msg_bytes s h) = map k_bytes r /\ Forall (fun p => k_sub p = g_sub h) r /\
    (1 <= length r <= 64)%nat /\ (zlen (msg_bytes s h) <= 65535 \/ length r = 1%nat).
Proof.
  intros R J N. destruct (reach_ginv s R) as ((runs & C) & _). destruct C as [C1 C2 C3 C4 C5 C6 C7 C8 C9 C10 C11 C12 C13 C14 C15 _].
  assert (Lj : (j - u_fm s < length runs)%nat) by lia. destruct (nth_error runs (j - u_fm s)) as [r|] eqn:Er; [|apply nth_error_None in Er; lia].
  destruct (nth_error_split runs _ Er) as (r1 & r2 & Es & L1). 
  assert (Eh : h = {| g_iov := (nbufs (firstn (u_fp s) (u_pk s)) + nbufs (concat r1))%nat; g_n := nbufs r; g_sub := head_sub r |}).
  { assert (X : nth_error (descs (nbufs (firstn (u_fp s) (u_pk s))) runs) (j - u_fm s) = Some h).
    { rewrite <- C11, nth_error_firstn_lt by lia. rewrite nth_error_skipn. now replace (u_fm s + (j - u_fm s))%nat with j by lia. }
    rewrite Es, <- L1 in X. replace (r1 ++ r :: r2) with ((r1 ++ [r]) ++ r2) in X by (now rewrite <- app_assoc).
    assert (DA : forall a b n, descs n (a ++ b) = descs n a ++ descs (n + nbufs (concat a)) b).
    { induction a as [|x a IH]; intros b n; cbn [app descs concat]; [change (nbufs []) with 0%nat; now rewrite Nat.add_0_r|]. rewrite IH, nbufs_app. now rewrite Nat.add_assoc. }
    rewrite DA, nth_error_app1, descs_snoc, nth_error_app2 in X by (rewrite length_descs, ?app_length; cbn [length]; lia). rewrite length_descs, Nat.sub_diag in X. now injection X as <-. }
  assert (EB : u_pk s = (firstn (u_fp s) (u_pk s) ++ concat r1) ++ r ++ concat r2).
  { rewrite <- (firstn_skipn (u_fp s) (u_pk s)) at 1. rewrite <- C9, Es, concat_app. cbn [concat]. now rewrite <- app_assoc. }
  assert (MB : msg_bytes s h = rbytes r).
  { unfold msg_bytes. subst h. cbn [g_n g_iov]. rewrite <- nbufs_app, C7. clear - EB. set (pre := firstn (u_fp s) (u_pk s) ++ concat r1) in *. clearbody pre. rewrite EB. rewrite flat_map_app', skipn_app. unfold nbufs. rewrite skipn_all, Nat.sub_diag. cbn [skipn app]. rewrite flat_map_app', firstn_app, firstn_all, Nat.sub_diag. cbn [firstn]. rewrite app_nil_r. apply concat_flat_bufs. }
  rewrite Forall_forall in C13, C14, C15. assert (I : In r runs) by (eapply nth_error_In, Er). destruct (C14 r I) as ((d & SD) & SZ). pose proof (C13 r I) as NE.
  exists r. split; [eauto|]. split; [exact MB|]. split; [rewrite MB; now apply C15|]. split; [subst h; cbn [g_sub]; destruct r as [|p r]; [easy|]; cbn [head_sub]; inversion SD; subst; now constructor|].
  split; [|unfold rsize in SZ; rewrite MB; exact SZ]. rewrite EB, !app_length in C4. unfold max_batch in C4. destruct r; [easy|]. cbn [length] in *. lia.
Qed.
(** The code never indexes outside its arrays, and it accepts every answer while
    a batch is pending.  Each answer that is not EAGAIN brings the batch forward,
    or turns offload off for it, which happens at most once. *)
Definition left_to_do (s : ust) : nat := (2 * (u_lp s - u_fp s) + (if (0 <? u_cur s)%Z then 1 else 0))%nat.
Lemma adv_gt : forall n mrg b a, (a < adv n mrg b a)%nat.
Proof. induction n as [|n IH]; intros mrg b a; cbn [adv]; [lia|]. destruct (_ && _); [|lia]. specialize (IH mrg b (S a)). lia. Qed.
Theorem C41_progress s l : u_reach quiet s -> sane s l -> quiet l -> step s l <> Fault /\
  ((u_fm s < u_lm s)%nat -> (forall r, exists s', step s (KErr r) = Ok s' /\ (left_to_do s' < left_to_do s)%nat) /\
     exists s', step s (KSent 1) = Ok s' /\ (left_to_do s' < left_to_do s)%nat).
Proof.
  intros R S Q. pose proof (reach_ginv s R) as G. split; [now apply step_ginv|]. intro B. destruct G as ((runs & C) & M). pose proof (c_lm s runs C) as L. destruct runs as [|r0 rs]; [cbn [length] in L; lia|].
  assert (D : forall o s0, core s0 (r0 :: rs) -> (u_fp s0 < u_fp (msg_done o s0))%nat /\ (u_fp (msg_done o s0) <= u_lp (msg_done o s0))%nat /\ u_lp (msg_done o s0) = u_lp s0).
  { intros o s0 C0. destruct (core_next s0 r0 rs o C0) as (C' & _ & _). split; [|split; [exact (c_fp _ _ C')|reflexivity]]. cbn [msg_done u_fp]. apply adv_gt. }
  assert (DL : forall o c s0, core s0 (r0 :: rs) -> (c <= 0 \/ c = u_cur s0) -> u_cur s0 = u_cur s -> u_fp s0 = u_fp s -> u_lp s0 = u_lp s -> forall s1, s1 = set_gso c (u_sock (msg_done o s0)) (msg_done o s0) -> (left_to_do s1 < left_to_do s)%nat).
  { intros o c s0 C0 Hc E1 E2 E3 s1 ->. destruct (D o s0 C0) as (D1 & D2 & D3). unfold left_to_do. cbn [set_gso u_lp u_fp u_cur]. rewrite D3 in *. change (u_lp (msg_done o s0)) with (u_lp s0) in *. rewrite E2, E3 in *.
    destruct (Z.ltb_spec 0 c), (Z.ltb_spec 0 (u_cur s)); lia. }
  split.
  - intro r. cbn [step]. destruct (Nat.ltb_spec (u_fm s) (u_lm s)); [|lia]. cbn [negb]. destruct (Z.eqb_spec (u_cur s) gso_probe) as [P|P].
    + eexists. split; [reflexivity|]. apply (DL Failed gso_inactive s C); auto. left. unfold gso_inactive. lia.
    + assert (DF : (left_to_do (msg_done Failed s) < left_to_do s)%nat). { apply (DL Failed (u_cur s) s C); auto. }
      destruct (Z.ltb_spec 0 (u_cur s)) as [P1|P1]; [|eauto]. destruct (set_ok r) eqn:SO; [|eauto].
      destruct (step_ginv s (KErr r) (conj (ex_intro _ _ C) M) Logic.I Logic.I) as [NF _]. cbn [step] in NF. destruct (Nat.ltb_spec (u_fm s) (u_lm s)); [|lia]. cbn [negb] in NF. destruct (Z.eqb_spec (u_cur s) gso_probe); [contradiction|]. destruct (Z.ltb_spec 0 (u_cur s)); [|lia]. rewrite SO in NF.
      destruct (nth_error (u_msgs s) (u_fm s)) as [h|]; [|contradiction]. unfold do_prepare in *. destruct (prepare _ _ _ _ _ _ _ _ _ _) as [[[m msgs] mrg]|]; [|contradiction]. cbn [of_opt]. eexists. split; [reflexivity|]. unfold left_to_do. cbn [set_gso u_fp u_lp u_cur].
      unfold gso_probe. change (0 <? -2) with false. destruct (Z.ltb_spec 0 (u_cur s)); lia.
  - cbn [step]. change (1 <=? 1)%nat with true. destruct (Nat.leb_spec (u_fm s + 1) (u_lm s)); [|lia]. cbn [andb]. eexists. split; [reflexivity|]. cbn [msgs_done].
    destruct (u_cur s =? gso_probe); [apply (DL Sent gso_disabled s C); auto; left; unfold gso_disabled; lia|apply (DL Sent (u_cur s) s C); auto].
Qed.

(** Without [quiet] the claim fails: when the kernel refuses both to set the new
    segment size and to clear the old one, packets are cut at the old size. *)
Definition bytes_n (n : nat) (v : Z) : list Z := repeat v n.
Definition mk_pkt (n : nat) (v : Z) (sub : nat) (l : bool) : pkt := {| k_bufs := [bytes_n n v]; k_sub := sub; k_last := l |}.
Fixpoint u_run (s : ust) (ls : list label) : res := match ls with [] => Ok s | l :: ls' => match step s l with Ok s' => u_run s' ls' | r => r end end.
Lemma u_run_reach (P : label -> Prop) : forall ls s s', u_reach P s -> Forall P ls -> (forall s0 l, In l ls -> sane s0 l) -> u_run s ls = Ok s' -> u_reach P s'.
Proof.
  induction ls as [|l ls IH]; intros s s' R F SN E; cbn [u_run] in E; [now injection E as <-|]. destruct (step s l) as [| |s1] eqn:E1; try discriminate. inversion F; subst.
  apply (IH s1); auto; [|intros s0 l0 I; apply SN; now right]. eapply u_reachS; eauto. apply SN. now left.
Qed.
Definition bad_run : list label := [Wake [mk_pkt 10 1 0 true] SetOk SetOk; KSent 1; Wake [mk_pkt 25 2 0 true] SetFail SetFail; KSent 1].
Theorem C41_set_failures_refuted : exists s, u_reach (fun _ => True) s /\ u_fm s = u_lm s /\ u_res s = [Sent; Sent] /\ u_wire s <> datagrams (u_hist s) (u_res s).
Proof.
  destruct (u_run u_init bad_run) as [| |s] eqn:E; [vm_compute in E; discriminate|vm_compute in E; discriminate|]. exists s. split.
  - apply (u_run_reach _ bad_run u_init); [constructor|repeat constructor| |exact E]. intros s0 l I. cbn [bad_run In] in I. decompose [or] I; subst; try exact Logic.I; try contradiction; (split; [repeat constructor|discriminate]).
  - vm_compute in E. injection E as <-. split; [reflexivity|]. split; [reflexivity|]. vm_compute. discriminate.
Qed.

(** A batch with merged packets, two destinations, an error of the network with
    offload, and a second one without. *)
Definition good_batch : list label :=
  [Wake [mk_pkt 10 1 0 false; mk_pkt 10 2 0 false; mk_pkt 4 3 0 true; mk_pkt 10 4 1 false; mk_pkt 7 5 1 true] SetOk SetOk;
   KAgain; KSent 1; KErr SetOk; KErr SetOk; KSent 1; Wake [mk_pkt 8 6 0 false; mk_pkt 8 7 0 true] SetOk SetOk; KSent 1].
Example C41_ex : exists s, u_reach quiet s /\ u_fm s = u_lm s /\ u_res s = [Sent; Sent; Sent; Failed; Sent; Sent; Sent] /\ u_groups s = 3 /\ u_cur s = 8 /\
  u_wire s = [(0%nat, bytes_n 10 1); (0%nat, bytes_n 10 2); (0%nat, bytes_n 4 3); (1%nat, bytes_n 7 5); (0%nat, bytes_n 8 6); (0%nat, bytes_n 8 7)].
Proof.
  destruct (u_run u_init good_batch) as [| |s] eqn:E; [vm_compute in E; discriminate|vm_compute in E; discriminate|]. exists s. split.
  - apply (u_run_reach _ good_batch u_init); [constructor|repeat constructor| |exact E]. intros s0 l I. cbn [good_batch In] in I. decompose [or] I; subst; try exact Logic.I; try contradiction; (split; [repeat constructor|discriminate]).
  - vm_compute in E. injection E as <-. repeat split.
Qed.
(** In the first batch, the first message has three packets. *)
Example C41_limits_ex : exists s h, u_run u_init (firstn 1 good_batch) = Ok s /\ u_lm s = 2%nat /\ nth_error (u_msgs s) 0 = Some h /\ zlen (msg_bytes s h) = 24.
Proof. destruct (u_run u_init (firstn 1 good_batch)) as [| |s] eqn:E; [vm_compute in E; discriminate|vm_compute in E; discriminate|]. vm_compute in E. injection E as <-. eexists. eexists. split; [reflexivity|]. repeat split. Qed.

(** *** C54 *)
Lemma coalesced_pos seg : forall ps, coalesced seg ps -> 0 < zlen (concat ps).
Proof.
  induction ps as [|p ps IH]; [easy|]. intro C. cbn [concat]. rewrite zlen_app. pose proof (zlen_nonneg (concat ps)). pose proof (zlen_nonneg p). destruct ps as [|q ps]; [cbn in C; lia|]. destruct C as [C1 C2]. specialize (IH C2). lia.
Qed.
(** Whatever packets the kernel has coalesced, the reader sees them. *)
Theorem C54_gro seg ps : 0 < seg -> coalesced seg ps -> gro_split seg (concat ps) = ps.
Proof.
  intros G C. unfold gro_split. destruct (Z.ltb_spec 0 seg); [|lia].
  assert (X : forall ps pre fuel, coalesced seg ps -> (length (concat ps) <= fuel)%nat -> gro_pieces fuel seg (zlen pre) (pre ++ concat ps) = ps).
  { clear ps C. induction ps as [|p ps IH]; intros pre fuel C L; [easy|]. pose proof (coalesced_pos seg _ C) as P. destruct fuel as [|f]; [unfold zlen in P; lia|]. cbn [gro_pieces]. rewrite zlen_app. destruct (Z.ltb_spec (zlen pre) (zlen pre + zlen (concat (p :: ps)))); [|lia].
    replace (zlen pre + zlen (concat (p :: ps)) - zlen pre) with (zlen (concat (p :: ps))) by lia. rewrite slice_app_r by (pose proof (zlen_nonneg pre); lia). replace (zlen pre - zlen pre) with 0 by lia. cbn [concat] in *. rewrite zlen_app in *. rewrite app_length in L.
    destruct ps as [|q ps].
    - cbn [concat] in *. rewrite app_nil_r in *. change (zlen []) with 0 in *. rewrite Z.add_0_r in *. cbn [coalesced] in C. rewrite Z.min_r by lia. rewrite slice_full. f_equal. destruct f; [reflexivity|]. cbn [gro_pieces]. rewrite zlen_app. destruct (Z.ltb_spec (zlen pre + seg) (zlen pre + zlen p)); [lia|reflexivity].
    - destruct C as [C1 C2]. pose proof (coalesced_pos seg _ C2) as P2. rewrite Z.min_l by lia. rewrite slice_app_l by lia. rewrite <- C1, slice_full. f_equal.
      replace (zlen pre + zlen p) with (zlen (pre ++ p)) by apply zlen_app. rewrite app_assoc. rewrite C1 at 1. apply IH; [exact C2|]. unfold zlen in *. lia. }
  specialize (X ps [] (length (concat ps)) C (le_n _)). cbn [app] in X. exact X.
Qed.
(** And what a writer with offload merges, a kernel cuts, a kernel coalesces and
    the reader cuts again are the same packets. *)
Theorem C54_gso_gro g r : 0 < g -> Forall (fun p => 0 < k_size p <= g) r -> fits g r -> gro_split g (concat (segments g (rbytes r))) = map k_bytes r.
Proof.
  intros G P F. rewrite segments_run; auto; [|eapply Forall_impl; [|exact P]; cbn; lia|intros _; eapply Forall_impl; [|exact P]; cbn; lia]. apply C54_gro; [exact G|].
  induction r as [|p r IH]; [easy|]. inversion P; subst. destruct r as [|q r]; cbn [map coalesced fits] in *; [unfold k_size in *; lia|]. destruct F as [F1 F2]. split; [exact F1|]. now apply IH.
Qed.
Example C54_ex : coalesced 3 [[1;2;3];[4;5;6];[7]] /\ gro_split 3 [1;2;3;4;5;6;7] = [[1;2;3];[4;5;6];[7]] /\ gro_split (-1) [1;2;3] = [[1;2;3]].
Proof. split; [unfold coalesced, zlen; cbn [length]; lia|split; reflexivity]. Qed.

Print Assumptions C41_transparent.
Print Assumptions C41_complete.
Print Assumptions C41_limits.
Print Assumptions C41_progress.
Print Assumptions C41_set_failures_refuted.
Print Assumptions C54_gro.
Print Assumptions C54_gso_gro.
