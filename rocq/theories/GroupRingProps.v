(** C72: chunks travel through the rings of a chunk stream group without being lost or
    used by two sides, and stop always returns. *)
From Coq Require Import ZArith List Bool Lia Arith Permutation Sorted.
From Verif Require Import Base ConcBase ChunkModel ChunkSpec ChunkProofs GroupModel GroupProofs GroupProps GroupRingModel GroupRingSpec GroupRingProofs.
Import ListNotations.
Open Scope Z_scope.

(** No assertion fails and no memory is accessed out of bounds. *)
Theorem C72_safe : forall capd capf lossy gmax maxs chunks tr s l, group_ok gmax maxs ->
  rexec capd capf (rg_new lossy gmax maxs chunks) tr s -> rstep capd capf s l <> RFault.
Proof.
  intros capd capf lossy gmax maxs chunks tr s l Gok X F. pose proof (rinv_exec capd capf lossy gmax maxs chunks Gok _ _ X) as R. destruct (reach_ginv lossy gmax maxs Gok _ _ (r_g _ _ _ _ _ _ R)) as (mon & gl & _ & G).
  assert (NF : forall i gll k, g_do s i gll k <> RFault) by (intros i gll k H; unfold g_do in H; destruct (g_step (x_g s) gll) eqn:E; try discriminate; eapply step_not_fault; eauto).
  destruct l as [i id|i id|i|i j|i|i| | |i| | |v| |b]; cbn [rstep] in F; try discriminate.
  - destruct (_ && _); [now apply NF in F|discriminate].
  - destruct (unlocked s i); [now apply NF in F|discriminate].
  - unfold go in F. destruct (nth_error _ _) as [m|]; [|discriminate]. destruct (mb_pc m); [discriminate| | | |].
    + destruct (holding s i); [discriminate|now apply NF in F].
    + destruct (x_hold s); try discriminate. now apply NF in F.
    + destruct (x_hold s) as [|j [|? ?] acc|]; try discriminate; [destruct (needs _ _); [now apply NF in F|discriminate]|]. destruct (Nat.eqb j i); [now apply NF in F|discriminate].
    + destruct (x_hold s) as [|j [|? ?] acc|]; try discriminate; [destruct (needs _ _); [now apply NF in F|discriminate]|]. destruct (Nat.eqb j i); [now apply NF in F|discriminate].
  - destruct (unlocked s i); [now apply NF in F|discriminate].
  - destruct (_ && _); [now apply NF in F|discriminate].
  - destruct (_ && _); discriminate.
  - destruct (x_hold s) as [|j [|? ?] acc|]; try discriminate. destruct (x_free s); [|discriminate]. destruct (x_fstop s); discriminate.
  - destruct (x_hold s) as [| |j [|? ?]]; try discriminate. destruct (x_dstop s); [discriminate|]. destruct (Nat.ltb _ _); discriminate.
  - now apply NF in F.
  - destruct (x_stop s); discriminate.
  - unfold stop_go in F. destruct (x_stop s) as [| | |i b|i b]; try discriminate.
    + destruct (g_lossy _); [discriminate|now apply NF in F].
    + destruct (Nat.ltb _ _); [|discriminate]. destruct (unlocked s i); [|discriminate]. destruct b; [destruct (is_done s i); [discriminate|]|]; now apply NF in F.
    + destruct (quiet_m s i); [|discriminate]. destruct b; [destruct (is_removed s i)|]; discriminate.
  - destruct (mem_z v (x_mine s)); [|discriminate]. destruct (_ && _); discriminate.
  - destruct (x_data s); discriminate.
Qed.
Print Assumptions C72_safe.

(** The chunks the user started with are each in one place: in a ring, with the user, in the
    group's window, in the hands of a call that waits for a ring, in the graveyard, or freed.  Those
    in the window are the ones given to the group and not yet made ready, and what
    the members write to is in the window (of [gmax] chunks) at that time. *)
Theorem C72_places : forall capd capf lossy gmax maxs chunks tr s, group_ok gmax maxs ->
  rexec capd capf (rg_new lossy gmax maxs chunks) tr s ->
  exists m, cmon_run (Z.of_nat gmax) cmon0 (chunk_events (g_events tr)) = Some m /\ given tr = made tr ++ map snd (cm_out m) /\
    Permutation chunks (x_free s ++ x_data s ++ x_mine s ++ map snd (cm_out m) ++ held (x_hold s) ++ x_grave s ++ freeds tr).
Proof.
  intros capd capf lossy gmax maxs chunks tr s Gok X. pose proof (rinv_exec capd capf lossy gmax maxs chunks Gok _ _ X) as R. destruct (reach_ginv lossy gmax maxs Gok _ _ (r_g _ _ _ _ _ _ R)) as (mon & gl & M & G).
  exists mon. split; [exact M|]. pose proof (cmon_handover _ _ _ _ M) as H. cbn [cmon0 cm_out map app] in H. split; [exact H|]. apply (Permutation_count_occ Z.eq_dec). intro v. pose proof (r_cons _ _ _ _ _ _ R v _ H) as C. unfold cnt in C. rewrite C, !count_occ_app. lia.
Qed.
Print Assumptions C72_places.

(** Chunks come out in the order of their ids, which is the order in which they were given to the group:
    first those sent through the data ring (the user gets them in this order), then
    those that found it stopped. *)
Theorem C72_order : forall capd capf lossy gmax maxs chunks tr s, group_ok gmax maxs ->
  rexec capd capf (rg_new lossy gmax maxs chunks) tr s ->
  (exists kept, given tr = sents tr ++ burieds tr ++ pushing (x_hold s) ++ kept) /\ sents tr = gots tr ++ x_data s /\
  StronglySorted Z.lt (map fst (given_ids tr)).
Proof.
  intros capd capf lossy gmax maxs chunks tr s Gok X. pose proof (rinv_exec capd capf lossy gmax maxs chunks Gok _ _ X) as R. destruct (kept_ex lossy gmax maxs chunks Gok _ _ R) as (kept & K). split; [|split].
  - exists kept. rewrite K, (r_out _ _ _ _ _ _ R), <- !app_assoc. reflexivity.
  - exact (r_sent _ _ _ _ _ _ R).
  - destruct (C32_ready _ _ _ _ _ Gok (r_g _ _ _ _ _ _ R)) as (gone & kp & A & _ & B & _). unfold given_ids. now rewrite A.
Qed.
Print Assumptions C72_order.

(** Unless the user stops the group or a ring, no chunk is buried; and the data ring is stopped exactly
    when all streams have ended, by when all the chunks have been sent. *)
Theorem C72_complete : forall capd capf lossy gmax maxs chunks tr s, group_ok gmax maxs ->
  rexec capd capf (rg_new lossy gmax maxs chunks) tr s -> ~ user_stop tr ->
  burieds tr = [] /\ freeds tr = [] /\ (x_dstop s = true <-> forall i, (i < length maxs)%nat -> is_removed s i = true) /\
  (x_dstop s = true -> x_hold s = HFree /\ sents tr = given tr).
Proof.
  intros capd capf lossy gmax maxs chunks tr s Gok X Nu.
  assert (B : forall tr s, rexec capd capf (rg_new lossy gmax maxs chunks) tr s -> ~ user_stop tr -> burieds tr = []).
  { induction 1 as [|tr0 s0 l s' ev X0 IH S]; intro N; [reflexivity|]. assert (N0 : ~ user_stop tr0) by (intro U; apply N; now apply user_stop_app). rewrite burieds_app, (IH N0). cbn [app]. pose proof (rinv_exec capd capf lossy gmax maxs chunks Gok _ _ X0) as R0.
    assert (NE : forall e, burieds (map EvG e) = []) by (intro e; apply no_others).
    destruct (rcases _ _ _ _ _ _ S); try apply NE; try reflexivity; [|apply freed_ev]. exfalso. destruct (r_dstop _ _ _ _ _ _ R0 H0) as [U|U]; [contradiction|]. destruct (all_ended lossy gmax maxs chunks Gok _ _ R0 U) as (Hf & _). congruence. }
  pose proof (rinv_exec capd capf lossy gmax maxs chunks Gok _ _ X) as R. specialize (B tr s X Nu). split; [exact B|]. assert (F : freeds tr = []).
  { destruct (freeds tr) as [|v l] eqn:E; [reflexivity|]. pose proof (r_grave _ _ _ _ _ _ R v) as Gv. rewrite B, E in Gv. unfold cnt in Gv. cbn [count_occ] in Gv. destruct (Z.eq_dec v v); [lia|congruence]. }
  split; [exact F|]. assert (DE : x_dstop s = true -> all_removed maxs s) by (intro D; destruct (r_dstop _ _ _ _ _ _ R D) as [U|U]; [contradiction|exact U]). split; [split; [exact DE|]|].
  - intro A. exact (ended_stops capd capf lossy gmax maxs chunks Gok _ _ X A).
  - intro D. destruct (all_ended lossy gmax maxs chunks Gok _ _ R (DE D)) as (Hf & E & _). split; [exact Hf|]. rewrite E, (r_out _ _ _ _ _ _ R), B, Hf. cbn [pushing app]. now rewrite app_nil_r.
Qed.
Print Assumptions C72_complete.

(** When stop has returned, all streams have ended, the group has no chunk any more (each
    has gone through the data ring or been freed), and no member takes a packet or writes to a chunk. *)
Theorem C72_stop : forall capd capf lossy gmax maxs chunks tr s, group_ok gmax maxs ->
  rexec capd capf (rg_new lossy gmax maxs chunks) tr s -> In EvStopRet tr ->
  x_hold s = HFree /\ x_grave s = [] /\ x_dstop s = true /\ x_fstop s = true /\ (forall i, (i < length maxs)%nat -> is_removed s i = true) /\
  given tr = sents tr ++ burieds tr /\ Permutation (burieds tr) (freeds tr) /\
  Permutation chunks (x_free s ++ x_data s ++ x_mine s ++ freeds tr) /\
  (forall i id, rstep capd capf s (RGet i id) = RBlocked /\ rstep capd capf s (RTouch i id) = RBlocked).
Proof.
  intros capd capf lossy gmax maxs chunks tr s Gok X I. pose proof (rinv_exec capd capf lossy gmax maxs chunks Gok _ _ X) as R. destruct (stop_returned capd capf lossy gmax maxs chunks Gok _ _ X I) as (A & Gr & D1 & D2).
  destruct (all_ended lossy gmax maxs chunks Gok _ _ R A) as (Hf & E & Md). do 5 (split; [assumption|]). pose proof (r_out _ _ _ _ _ _ R) as Ro. rewrite Hf in Ro. cbn [pushing] in Ro. rewrite app_nil_r in Ro. split; [congruence|]. split; [|split].
  - apply (Permutation_count_occ Z.eq_dec). intro v. pose proof (r_grave _ _ _ _ _ _ R v) as H. rewrite Gr in H. exact H.
  - apply (Permutation_count_occ Z.eq_dec). intro v. rewrite <- (app_nil_r (made tr)) in E. pose proof (r_cons _ _ _ _ _ _ R v _ E) as C. rewrite Hf, Gr in C. cbn [held] in C. unfold cnt in C. cbn [count_occ] in C. rewrite C, !count_occ_app. lia.
  - intros i id. cbn [rstep]. destruct (unlocked s i) eqn:U; cbn [andb]; [|auto]. destruct (unlocked_quiet s i U) as (Q & _). apply quiet_facts in Q as (m & Hm & Hp & _). assert (Li : (i < length maxs)%nat) by (rewrite <- (members_len lossy gmax maxs Gok _ _ (r_g _ _ _ _ _ _ R)); apply nth_error_Some; congruence).
    destruct (r_rem _ _ _ _ _ _ R i (A i Li)) as [Dn _]. rewrite Dn. cbn [negb]. split; [reflexivity|]. unfold g_do. cbn [g_step]. rewrite Hm, Hp. destruct (Md m (nth_error_In _ _ Hm)) as [_ Hw]. unfold get_const. rewrite Hw.
    destruct (Z.leb_spec u64_max id) as [L|L]; cbn [andb]; [|reflexivity]. destruct (id <? w_tail (mb_win m)); [|reflexivity]. destruct (nth_error (w_slots (mb_win m)) (chunk_pos (mb_win m) id)) as [[c|]|]; try reflexivity. replace (id <? 2 ^ 63) with false; [now rewrite andb_false_r|]. symmetry. apply Z.ltb_ge. unfold u64_max in L. lia.
Qed.
Print Assumptions C72_stop.

(** A call of stop never gets stuck, even if nobody services the rings: until it returns some thread
    can go on without packets or the user ... *)
Theorem C72_stop_returns : forall capd capf lossy gmax maxs chunks tr s, group_ok gmax maxs ->
  rexec capd capf (rg_new lossy gmax maxs chunks) tr s -> x_stop s <> SNo ->
  exists l s' ev, on_its_own l = true /\ rstep capd capf s l = ROk s' ev.
Proof.
  intros capd capf lossy gmax maxs chunks tr s Gok X N. pose proof (stop_not_stuck capd capf lossy gmax maxs chunks Gok _ _ X N) as K.
  pose proof (fun l => C72_safe _ _ _ _ _ _ _ _ l Gok X) as Sf. pose proof (rinv_exec capd capf lossy gmax maxs chunks Gok _ _ X) as R.
  (* it is enough to look at finitely many labels *)
  set (np := fold_right Nat.max 0%nat (map (fun m => length (mb_pending m)) (g_members (x_g s)))).
  set (k := length (g_members (x_g s))).
  set (ls := [RPop; RPush; RStopGo] ++ flat_map (fun i => [RGo i; RRemove i]) (seq 0 k) ++ flat_map (fun i => map (RFlush i) (seq 0 np)) (seq 0 k)).
  destruct (find (fun l => match rstep capd capf s l with ROk _ _ => true | _ => false end) ls) as [l|] eqn:Fd.
  - apply find_some in Fd as [I E]. exists l. destruct (rstep capd capf s l) as [| |s' ev]; try discriminate. exists s', ev. split; [|reflexivity]. unfold ls in I. apply in_app_or in I as [I|I]; [destruct I as [<-|[<-|[<-|[]]]]; reflexivity|].
    apply in_app_or in I as [I|I]; apply in_flat_map in I as (i & _ & I); [destruct I as [<-|[<-|[]]]; reflexivity|]. apply in_map_iff in I as (j & <- & _). reflexivity.
  - exfalso. apply K. intros l O. pose proof (find_none _ _ Fd) as Nn. assert (B : In l ls -> rstep capd capf s l = RBlocked) by (intro I; specialize (Nn l I); specialize (Sf l); cbn beta in Nn; destruct (rstep capd capf s l); [reflexivity|congruence|discriminate]).
    assert (Sq : forall i, (i < k)%nat -> In i (seq 0 k)) by (intros i L; apply in_seq; lia).
    destruct l as [i id|i id|i|i j|i|i| | |i| | |v| |b]; try discriminate.
    + destruct (Nat.lt_ge_cases i k) as [L|L]; [apply B; unfold ls; apply in_or_app; right; apply in_or_app; left; apply in_flat_map; exists i; split; [auto|now left]|]. cbn [rstep]. unfold go. destruct (nth_error (g_members (x_g s)) i) eqn:E; [|reflexivity]. assert (i < k)%nat by (apply nth_error_Some; congruence). lia.
    + destruct (nth_error (g_members (x_g s)) i) as [m|] eqn:Hm.
      * assert (L : (i < k)%nat) by (apply nth_error_Some; congruence). destruct (Nat.lt_ge_cases j np) as [Lj|Lj].
        -- apply B. unfold ls. apply in_or_app. right. apply in_or_app. right. apply in_flat_map. exists i. split; [auto|]. apply in_map. apply in_seq. lia.
        -- cbn [rstep]. destruct (unlocked s i); [|reflexivity]. unfold g_do. cbn [g_step]. rewrite Hm. destruct (mb_pc m); try reflexivity. assert (Ln : (length (mb_pending m) <= np)%nat).
           { unfold np. apply nth_error_In in Hm. clear - Hm. induction (g_members (x_g s)) as [|x l IH]; [destruct Hm|]. cbn [map fold_right]. destruct Hm as [->|Hm]; [lia|]. specialize (IH Hm). lia. }
           replace (nth_error (mb_pending m) j) with (@None Z); [reflexivity|]. symmetry. apply nth_error_None. lia.
      * cbn [rstep]. unfold unlocked, quiet_m. rewrite Hm. reflexivity.
    + destruct (Nat.lt_ge_cases i k) as [L|L]; [apply B; unfold ls; apply in_or_app; right; apply in_or_app; left; apply in_flat_map; exists i; split; [auto|right; now left]|]. cbn [rstep]. unfold quiet_m. destruct (nth_error (g_members (x_g s)) i) eqn:E; [|reflexivity]. assert (i < k)%nat by (apply nth_error_Some; congruence). lia.
    + apply B. unfold ls. now left.
    + apply B. unfold ls. right. now left.
    + apply B. unfold ls. right. right. now left.
Qed.
Print Assumptions C72_stop_returns.

(** ... and this cannot last for ever: the number of such steps is bounded, whatever the user does with the rings,
    but for a bounded number more for each packet, end of a stream, call of stop or spurious wakeup. *)
Theorem C72_progress : forall capd capf lossy gmax maxs chunks tr s, group_ok gmax maxs ->
  rexec capd capf (rg_new lossy gmax maxs chunks) tr s ->
  exists bound more, forall ls s' ev, rrun capd capf s ls = Some (s', ev) -> (count on_its_own ls <= bound + more * count brings ls)%nat.
Proof.
  intros capd capf lossy gmax maxs chunks tr s Gok X. exists (rwork gmax maxs s), (rounds gmax maxs). intros ls s' ev Hr. pose proof (rwork_run capd capf lossy gmax maxs chunks Gok ls tr s s' ev X Hr). lia.
Qed.
Print Assumptions C72_progress.

(** With at least as many chunks as the window has room for, and no stop: when nothing can go on, either no
    call is waiting for a ring (and with lossy eviction none is in progress), or the user has a chunk to take from
    the data ring, or one to add to an empty free ring. *)
Theorem C72_live : forall capd capf lossy gmax maxs chunks tr s, group_ok gmax maxs -> (0 < capd)%nat -> (gmax <= length chunks)%nat ->
  rexec capd capf (rg_new lossy gmax maxs chunks) tr s -> ~ user_stop tr ->
  (forall l, on_its_own l = true -> rstep capd capf s l = RBlocked) ->
  (x_hold s = HFree /\ (lossy = true -> at_rest s)) \/ x_data s <> [] \/ (x_free s = [] /\ x_mine s <> []).
Proof.
  intros capd capf lossy gmax maxs chunks tr s Gok Cd Ch X Nu Q. pose proof (rinv_exec capd capf lossy gmax maxs chunks Gok _ _ X) as R.
  destruct (stuck_hold capd capf lossy gmax maxs chunks Gok tr s R Q) as [Hf|[(i & c & out & _ & _ & L)|(i & id & ids & acc & Hh & Fs & Fr)]].
  - left. split; [exact Hf|]. intros ->. split; [exact Hf|]. exact (C33_no_deadlock gmax maxs (x_g s) (g_events tr) Gok (r_g _ _ _ _ _ _ R) (stuck_group capd capf true gmax maxs chunks Gok tr s R Q Hf)).
  - right. left. intro E. rewrite E in L. cbn in L. lia.
  - right. destruct (x_data s) as [|c d] eqn:Ed; [|left; discriminate]. right. split; [exact Fr|]. intro Em. destruct (C72_complete _ _ _ _ _ _ _ _ Gok X Nu) as (B & F & _).
    destruct (C72_places _ _ _ _ _ _ _ _ Gok X) as (m & M & _ & P). apply Permutation_length in P. rewrite !app_length, map_length, Ed, Em, Fr, F in P. cbn [length] in P.
    assert (Gz : x_grave s = []). { destruct (x_grave s) as [|v l] eqn:E; [reflexivity|]. pose proof (r_grave _ _ _ _ _ _ R v) as Gv. rewrite B, E in Gv. unfold cnt in Gv. cbn [count_occ] in Gv. destruct (Z.eq_dec v v); [lia|congruence]. }
    rewrite Gz, Hh in P. cbn [length held] in P. destruct (reach_ginv lossy gmax maxs Gok _ _ (r_g _ _ _ _ _ _ R)) as (mon & gl & M2 & G). rewrite M in M2. injection M2 as <-.
    pose proof (r_hold _ _ _ _ _ _ R) as Ho. unfold hold_ok in Ho. rewrite Hh in Ho. destruct Ho as (mb & Hm & A & Gs & Wn). pose proof (f_equal (@length Z) Wn) as Lw. rewrite app_length, map_length in Lw. cbn [length] in Lw.
    destruct (room _ _ _ _ _ _ G i mb Hm A Gs) as [Rm|Rm]; [|rewrite Rm in Lw; cbn in Lw; lia].
    assert (La : (length (flat_map (fun p : Z * option Z => opt_list (snd p)) acc) <= length acc)%nat) by (clear; induction acc as [|[a [b|]] acc IH]; cbn [flat_map opt_list snd app length]; lia). lia.
Qed.
Print Assumptions C72_live.

(** The number of chunks matters: with one chunk and a window of two, a member waits for a chunk that nobody has, and
    keeps the group's mutex locked, so that all members hang until somebody calls stop. *)
Lemma rrun_exec capd capf s0 : forall ls tr s s' ev, rexec capd capf s0 tr s -> rrun capd capf s ls = Some (s', ev) -> rexec capd capf s0 (tr ++ ev) s'.
Proof.
  induction ls as [|l ls IH]; intros tr s s' ev X H; cbn [rrun] in H.
  - injection H as <- <-. now rewrite app_nil_r.
  - destruct (rstep capd capf s l) as [| |s1 e1] eqn:S; try discriminate. destruct (rrun capd capf s1 ls) as [[s2 e2]|] eqn:E; [|discriminate]. injection H as <- <-. rewrite app_assoc. eapply IH; [|exact E]. eapply rx_step; eauto.
Qed.
Definition few_ls : list rlabel := [UAdd 10; RGet 0 0; RGo 0; RGo 0; RPop; RGo 0; RGo 0; RTouch 0 0; RGet 0 1; RGo 0; RGo 0].
Theorem C72_few_chunks_hang : exists capd capf gmax maxs chunks tr s, group_ok gmax maxs /\ (0 < capd)%nat /\ (0 < capf)%nat /\ chunks <> [] /\
  rexec capd capf (rg_new true gmax maxs chunks) tr s /\ ~ user_stop tr /\ x_data s = [] /\ x_mine s = [] /\ x_hold s <> HFree /\
  (forall l, on_its_own l = true -> rstep capd capf s l = RBlocked).
Proof.
  exists 2%nat, 3%nat, 2%nat, [2; 2]%nat, [10]. destruct (rrun 2 3 (rg_new true 2 [2; 2]%nat [10]) few_ls) as [[s ev]|] eqn:E; [|vm_compute in E; discriminate]. exists ev, s.
  pose proof (rrun_exec 2 3 _ few_ls [] _ s ev (rx_new 2 3 _) E) as X. cbn [app] in X. vm_compute in E. injection E as Es Ev.
  split; [split; [reflexivity|split; [repeat constructor|discriminate]]|]. do 2 (split; [lia|]). split; [discriminate|]. split; [exact X|]. split.
  { rewrite <- Ev. intros [H|H]; repeat (destruct H as [H|H]; [discriminate|]); destruct H. }
  rewrite <- Es. split; [reflexivity|]. split; [reflexivity|]. split; [discriminate|].
  intros l O. destruct l as [i id|i id|i|i j|i|i| | |i| | |v| |b]; try discriminate O; try reflexivity.
  - destruct i as [|[|[|i]]]; reflexivity.
  - destruct i as [|[|[|i]]]; try reflexivity. destruct j; reflexivity.
  - destruct i as [|[|[|i]]]; reflexivity.
Qed.
Print Assumptions C72_few_chunks_hang.

(** *** Examples: two members, a window of two, three chunks *)
Example ring_ok : group_ok 2 [2; 1]%nat. Proof. split; [reflexivity|split; [repeat constructor|discriminate]]. Qed.
Definition c72_view (x : option (rgst * list rgev)) : option (list Z * list Z * list Z * list Z * list Z * bool * bool) :=
  match x with Some (s, tr) => Some (given tr, sents tr, gots tr, burieds tr, freeds tr, x_dstop s, existsb (fun e => match e with EvStopRet => true | _ => false end) tr) | None => None end.
(** stop is called while member 0 waits for the window to move on; nobody takes from the data ring *)
Definition stop_ls : list rlabel :=
  [UAdd 10; UAdd 11; UAdd 12; RGet 0 0; RGo 0; RGo 0; RPop; RGo 0; RGo 0; RGet 1 0; RGo 1; RGo 1; RGo 1; RGet 0 1; RGo 0; RGo 0; RPop; RGo 0; RGo 0; RTouch 0 1; RGet 0 4; RGo 0; RGo 0; RGo 0;
   RStop; RStopGo; RStopGo; RFlush 1 0; RGo 1; RPush; RPush; RGo 0; RPop; RGo 0; RGo 0; RGo 0; RPop; RGo 0; RGo 0; RStopGo; RGo 0; RPush; RStopGo; RStopGo;
   RRemove 0; RStopGo; RStopGo; RStopGo; RStopGo; RFlush 0 0; RRemove 1; RStopGo; RStopGo].
Example C72_stop_ex : c72_view (rrun 1 3 (rg_new false 2 [2; 1]%nat [10; 11; 12]) stop_ls) = Some ([10; 11; 12], [], [], [10; 11; 12], [12; 11; 10], true, true).
Proof. vm_compute. reflexivity. Qed.
Example C72_stop_returns_ex : match rrun 1 3 (rg_new false 2 [2; 1]%nat [10; 11; 12]) (firstn 26 stop_ls) with
  | Some (s, _) => x_stop s = SPost /\ exists id t, option_map mb_pc (nth_error (g_members (x_g s)) 0) = Some (PWait id t false) | None => False end.
Proof. vm_compute. split; [reflexivity|]. eauto. Qed.
(** The streams end, and the user gets all the chunks and then the end of the data ring. *)
Definition end_ls : list rlabel :=
  [UAdd 10; UAdd 11; UAdd 12; RGet 0 0; RGo 0; RGo 0; RPop; RGo 0; RGo 0; RTouch 0 0; RGet 1 1; RGo 1; RGo 1; RGo 1; RPop; RGo 1; RGo 1; RTouch 1 1; RGet 0 2; RGo 0; RGo 0; RGo 0;
   RGo 0; RPush; RGo 0; RPop; RGo 0; RGo 0; UTake; UAdd 10; RNet 0; RGo 0; RRemove 0; RNet 1; RGo 1; RPush; RPush; RRemove 1; UTake; UTake].
Example C72_complete_ex : c72_view (rrun 2 3 (rg_new true 2 [2; 1]%nat [10; 11; 12]) end_ls) = Some ([10; 11; 12], [10; 11; 12], [10; 11; 12], [], [], true, false).
Proof. vm_compute. reflexivity. Qed.
(** A data ring of one fills up: the group waits for the user. *)
Example C72_live_ex : match rrun 1 3 (rg_new true 2 [2; 1]%nat [10; 11; 12]) (firstn 28 end_ls ++ [RNet 0; RGo 0; RRemove 0; RNet 1; RGo 1]) with
  | Some (s, tr) => x_hold s = HPush 1 [11; 12] /\ x_data s = [10] /\ rstep 1 3 s RPush = RBlocked | None => False end.
Proof. vm_compute. repeat split. Qed.
