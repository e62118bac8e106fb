(** C63: a chunk stream group and its threads. *)
From Coq Require Import ZArith List Bool Lia Arith.
From Verif Require Import Base ConcBase ChunkModel ChunkSpec ChunkProofs GroupModel GroupProofs GroupProps GroupPoolModel GroupPoolProofs.
Import ListNotations.
Open Scope Z_scope.

(** Every member has a queue, served by at least one thread; queue 0 is that of the user. *)
Definition pools_ok (maxs home : list nat) (nq : nat) (pools : list nat) : Prop :=
  length maxs = length home /\ Forall (fun p => 0 < p < nq)%nat home /\ (0 < nq)%nat /\ In 0%nat pools /\ Forall (fun p => In p pools) home.
(** Nothing can go on by itself. *)
Definition quiet (home : list nat) (s : pstate) : Prop := forall l, pinternal l = true -> pstep home s l = PBlocked.
(** All threads are idle, nothing is left to do, no member is inside a call. *)
Definition at_rest (s : pstate) : Prop :=
  (forall w, In w (workers s) -> snd w = WIdle) /\ (forall q, In q (queues s) -> q = []) /\ forall m, In m (g_members (pg s)) -> mb_pc m = PIdle /\ mb_pending m = [].

Section Props.
Context (lossy : bool) (gmax : nat) (maxs home : list nat) (nq : nat) (pools : list nat).
Context (Gok : group_ok gmax maxs) (Pok : pools_ok maxs home nq pools).
Notation start := (pool_new lossy gmax maxs nq pools).

Lemma reach_inv s tr : preach home start s tr -> pinv home nq s /\ g_reach (group_new lossy gmax maxs) (pg s) tr /\ map fst (workers s) = pools.
Proof.
  destruct Pok as (P1 & P2 & P3 & _). intro R. split; [|split].
  - induction R as [|s tr l s' e R IH S]; [now apply pinv_new|]. eapply pinv_step; eauto.
  - change tr with ([] ++ tr). eapply preach_group; [exact R|]. constructor.
  - induction R as [|s tr l s' e R IH S]; [cbn; rewrite map_map; cbn; apply map_id|]. rewrite <- IH.
    assert (U : forall w p x y, nth_error (workers s) w = Some (p, x) -> map fst (upd (workers s) w (p, y)) = map fst (workers s)).
    { intros w p x y. generalize (workers s). intro l0. revert w. induction l0 as [|a l0 IH0]; intros [|w] H; cbn in *; try discriminate; [injection H as ->; reflexivity|]. f_equal. eauto. }
    assert (D : forall w p x k l0 s1 e1, nth_error (workers s) w = Some (p, x) -> g_do home s w p k l0 = POk s1 e1 -> map fst (workers s1) = map fst (workers s)).
    { intros w p x k l0 s1 e1 H G. unfold g_do in G. destruct (g_step (pg s) l0); try discriminate. injection G as <- <-. cbn [workers]. eauto. }
    destruct l as [i ids fin|w|w|w alloc| |i]; cbn [pstep] in S.
    + destruct (nth_error home i); [|discriminate]. destruct (valid ids); [|discriminate]. now injection S as <- <-.
    + destruct (nth_error (workers s) w) as [[p [|k|k]]|] eqn:Hw; try discriminate. destruct (nth_error (queues s) p) as [[|k q]|]; try discriminate. injection S as <- <-. cbn [workers]. eauto.
    + destruct (nth_error (workers s) w) as [[p [|k|k]]|] eqn:Hw; try discriminate. destruct (existsb _ _); [discriminate|]. injection S as <- <-. cbn [set_worker workers]. eauto.
    + destruct (nth_error (workers s) w) as [[p [|k|k]]|] eqn:Hw; try discriminate. unfold go in S. destruct (nth_error (g_members (pg s)) (who k)) as [m|]; [|discriminate]. destruct k as [i ids fin|i t]; [|eauto].
      destruct (mb_pc m); eauto. destruct ids; [destruct fin|]; eauto. injection S as <- <-. cbn [set_worker workers]. eauto.
    + destruct (g_lossy (pg s)); [now injection S as <- <-|]. destruct (g_step (pg s) LPostStop); try discriminate. now injection S as <- <-.
    + destruct (g_step (pg s) (LSpurious i)); try discriminate. now injection S as <- <-.
Qed.

(** Whatever the pools, the group never faults (C32_safe). *)
Theorem C63_safe s tr l : preach home start s tr -> pstep home s l <> PFault.
Proof.
  intros R F. destruct (reach_inv s tr R) as (_ & G & _).
  assert (D : forall w p k l0, g_do home s w p k l0 <> PFault).
  { intros w p k l0 H. unfold g_do in H. destruct (g_step (pg s) l0) eqn:St; try discriminate. exact (C32_safe _ _ _ _ _ _ Gok G St). }
  destruct l as [i ids fin|w|w|w alloc| |i]; cbn [pstep] in F.
  - destruct (nth_error home i); [|discriminate]. destruct (valid ids); discriminate.
  - destruct (nth_error (workers s) w) as [[p [|k|k]]|]; try discriminate. destruct (nth_error (queues s) p) as [[|k q]|]; discriminate.
  - destruct (nth_error (workers s) w) as [[p [|k|k]]|]; try discriminate. destruct (existsb _ _); discriminate.
  - destruct (nth_error (workers s) w) as [[p [|k|k]]|]; try discriminate. unfold go in F. destruct (nth_error (g_members (pg s)) (who k)) as [m|]; [|discriminate]. destruct k as [i ids fin|i t]; [|exact (D _ _ _ _ F)].
    destruct (mb_pc m); try exact (D _ _ _ _ F). destruct ids; [destruct fin|]; try exact (D _ _ _ _ F). discriminate.
  - destruct (g_lossy (pg s)); [discriminate|]. discriminate.
  - destruct (g_step (pg s) (LSpurious i)); discriminate.
Qed.

(** *** When nothing can go on *)
(** A thread that holds the lock of a member that is not inside a call can go on. *)
Lemma run_idle s tr w p k m : preach home start s tr -> nth_error (workers s) w = Some (p, WRun k) -> nth_error (g_members (pg s)) (who k) = Some m -> mb_pc m = PIdle -> pstep home s (PGo w (fun _ => None)) <> PBlocked.
Proof.
  intros R Hw Hm Pc. destruct (reach_inv s tr R) as (V & G & _). pose proof (v_atw _ _ _ V w p k (or_intror Hw)) as At. cbn [pstep]. rewrite Hw. unfold go. rewrite Hm. destruct k as [i ids fin|i t]; cbn [who] in Hm.
  - rewrite Pc. destruct ids as [|id r]; [destruct fin|].
    + unfold g_do. cbn [g_step]. rewrite Hm, Pc. destruct (flush_all _ _) as [[? ?]|]; [|discriminate]. destruct (report_then _ _); discriminate.
    + discriminate.
    + unfold g_do. cbn [g_step]. rewrite Hm, Pc. destruct At as [Va _]. cbn [valid forallb] in Va. apply andb_prop in Va as [-> _]. destruct (_ <=? id); [|discriminate]. destruct (gc_jump _ _) as [[? ?]|]; [|discriminate]. destruct (report_then _ _); discriminate.
  - assert (I : In t (mb_pending m)).
    { apply (count_occ_In Z.eq_dec). rewrite (v_pend _ _ _ V i m t Hm). unfold total. pose proof (sumw_ge (held (isf i t)) _ _ _ Hw) as S. cbn [held snd isf] in S. rewrite Nat.eqb_refl, Z.eqb_refl in S. cbn in S. lia. }
    unfold g_do. cbn [g_step]. rewrite Hm, Pc, (idx_in _ _ I). destruct (flush_until _ _) as [[? ?]|]; [|discriminate]. destruct (report_then _ _); discriminate.
Qed.
(** Then nobody holds or wants the lock of a member that is not inside a call. *)
Lemma quiet_member s tr i m : preach home start s tr -> quiet home s -> nth_error (g_members (pg s)) i = Some m -> mb_pc m = PIdle ->
  forall w p k, nth_error (workers s) w = Some (p, WLock k) \/ nth_error (workers s) w = Some (p, WRun k) -> who k <> i.
Proof.
  intros R Q Hm Pc. assert (NR : forall w p k, nth_error (workers s) w = Some (p, WRun k) -> who k <> i).
  { intros w p k Hw <-. exact (run_idle s tr w p k m R Hw Hm Pc (Q (PGo w (fun _ => None)) eq_refl)). }
  intros w p k [Hw|Hw]; [|eauto]. intros <-. pose proof (Q (PLock w) eq_refl) as B. cbn [pstep] in B. rewrite Hw in B. destruct (existsb (running (who k)) (workers s)) eqn:Ex; [|discriminate].
  apply existsb_exists in Ex as ([p2 x] & I & E). apply In_nth_error in I as [w2 H2]. unfold running in E. cbn [snd] in E. destruct x as [| |k2]; try discriminate. apply Nat.eqb_eq in E. exact (NR _ _ _ H2 E).
Qed.
Lemma has_thread s tr p : preach home start s tr -> In p pools -> exists w x, nth_error (workers s) w = Some (p, x).
Proof.
  intros R I. destruct (reach_inv s tr R) as (_ & _ & E). rewrite <- E in I. apply in_map_iff in I as ([p' x] & E1 & I). cbn in E1. subst p'. apply In_nth_error in I as [w Hw]. eauto.
Qed.
Lemma quiet_queue s tr p : preach home start s tr -> quiet home s -> In p pools -> (forall w p' k, nth_error (workers s) w = Some (p', WLock k) \/ nth_error (workers s) w = Some (p', WRun k) -> p' <> p) ->
  forall q, nth_error (queues s) p = Some q -> q = [].
Proof.
  intros R Q I N q Hq. destruct (has_thread s tr p R I) as (w & x & Hw). destruct x as [|k|k]; [|exfalso; eapply (N w p k); eauto|exfalso; eapply (N w p k); eauto].
  pose proof (Q (PTake w) eq_refl) as B. cbn [pstep] in B. rewrite Hw, Hq in B. now destruct q.
Qed.
(** With a pool for each member, what is posted to a member that is not inside a call runs. *)
Lemma quiet_group s tr : NoDup home -> preach home start s tr -> quiet home s -> forall l, internal l = true -> g_step (pg s) l = Blocked.
Proof.
  intros ND R Q l Hl. destruct (reach_inv s tr R) as (V & G & _). destruct Pok as (P1 & P2 & P3 & P4 & P5). destruct l as [ |i alloc|i j| | | |]; try discriminate; cbn [g_step].
  - destruct (nth_error (g_members (pg s)) i) as [m|] eqn:Hm; [|reflexivity]. destruct (mb_pc m) eqn:Pc; [unfold member_step; now rewrite Pc| | | |];
      (destruct (v_busy _ _ _ V i m Hm) as (w & p & ids & fin & Hw); [congruence|]; pose proof (Q (PGo w alloc) eq_refl) as B; cbn [pstep] in B; rewrite Hw in B; unfold go in B; cbn [who] in B; rewrite Hm, Pc in B; unfold g_do in B; cbn [g_step] in B; rewrite Hm in B;
       destruct (member_step (pg s) i m alloc); [reflexivity|discriminate|discriminate]).
  - destruct (nth_error (g_members (pg s)) i) as [m|] eqn:Hm; [|reflexivity]. destruct (mb_pc m) eqn:Pc; try reflexivity. destruct (nth_error (mb_pending m) j) as [t|] eqn:Hj; [|reflexivity]. exfalso.
    pose proof (quiet_member s tr i m R Q Hm Pc) as N. assert (Li : (i < length home)%nat) by (rewrite <- (v_len _ _ _ V); apply nth_error_Some; congruence).
    destruct (nth_error home i) as [p|] eqn:Hp; [|apply nth_error_None in Hp; lia].
    assert (Np : forall w p' k, nth_error (workers s) w = Some (p', WLock k) \/ nth_error (workers s) w = Some (p', WRun k) -> p' <> p).
    { intros w p' k Hw ->. pose proof (v_atw _ _ _ V w p k Hw) as At. apply (N w p k Hw). pose proof (home_lt home nq P2 i p Hp) as [Lp _].
      assert (E : nth_error home (who k) = Some p) by (destruct k as [i' ids fin|i' t']; cbn in At |- *; [destruct At as [_ [At|[-> _]]]; [exact At|lia]|exact At]).
      rewrite NoDup_nth_error in ND. apply (ND (who k) i); [apply nth_error_Some; congruence|congruence]. }
    assert (I : In t (mb_pending m)) by (eapply nth_error_In; eauto). apply (count_occ_In Z.eq_dec) in I. rewrite (v_pend _ _ _ V i m t Hm) in I. unfold total in I.
    assert (Z1 : sumw (held (isf i t)) (workers s) = 0%nat).
    { apply sumw_zero. intros w [p' x] Hw. destruct x as [|k|k]; [reflexivity| |]; cbn [held snd]; (destruct k as [|i' u]; [reflexivity|]; cbn [isf]; destruct (Nat.eqb_spec i' i) as [->|]; [|reflexivity]; exfalso; eapply (N w p'); eauto). }
    assert (Z2 : sumw (sumw (isf i t)) (queues s) = 0%nat).
    { apply sumw_zero. intros p' q Hq. apply sumw_zero. intros n k Hk. destruct k as [|i' u]; [reflexivity|]. cbn [isf]. destruct (Nat.eqb_spec i' i) as [->|]; [|reflexivity]. exfalso.
      pose proof (v_at _ _ _ V p' q _ Hq (nth_error_In _ _ Hk)) as At. cbn in At. assert (p' = p) by congruence. subst p'.
      rewrite (quiet_queue s tr p R Q) with (q := q) in Hk; [now destruct n| |exact Np|exact Hq]. rewrite Forall_forall in P5. apply P5. eapply nth_error_In; eauto. }
    lia.
Qed.
Lemma quiet_rest s tr : preach home start s tr -> quiet home s -> (forall m, In m (g_members (pg s)) -> mb_pc m = PIdle) -> at_rest s.
Proof.
  intros R Q Idle. destruct (reach_inv s tr R) as (V & G & E). destruct Pok as (P1 & P2 & P3 & P4 & P5).
  assert (W : forall w p x, nth_error (workers s) w = Some (p, x) -> x = WIdle).
  { intros w p x Hw. assert (N : forall k, nth_error (workers s) w = Some (p, WLock k) \/ nth_error (workers s) w = Some (p, WRun k) -> False).
    { intros k Hk. pose proof (at_who _ _ P2 _ _ (v_atw _ _ _ V w p k Hk)) as L. destruct (nth_error (g_members (pg s)) (who k)) as [m|] eqn:Hm; [|apply nth_error_None in Hm; rewrite (v_len _ _ _ V) in Hm; lia].
      exact (quiet_member s tr (who k) m R Q Hm (Idle m (nth_error_In _ _ Hm)) w p k Hk eq_refl). }
    destruct x as [|k|k]; [reflexivity|exfalso; eauto|exfalso; eauto]. }
  assert (QE : forall p q, nth_error (queues s) p = Some q -> q = []).
  { intros p q Hq. destruct q as [|k q]; [reflexivity|]. eapply (quiet_queue s tr p R Q); [| |exact Hq].
    - pose proof (v_at _ _ _ V p _ k Hq (or_introl eq_refl)) as At. rewrite Forall_forall in P5. destruct k as [i ids fin|i t]; cbn in At; [destruct At as [_ [At|[-> _]]]; [|exact P4]|]; apply P5; eapply nth_error_In; eauto.
    - intros w p' k' [H|H]; apply W in H; discriminate. }
  split; [|split].
  - intros [p x] I. apply In_nth_error in I as [w Hw]. exact (W _ _ _ Hw).
  - intros q I. apply In_nth_error in I as [p Hp]. exact (QE _ _ Hp).
  - intros m I. split; [auto|]. apply In_nth_error in I as [i Hm]. destruct (mb_pending m) as [|t l] eqn:Ep; [reflexivity|]. exfalso.
    assert (C : (0 < count_occ Z.eq_dec (mb_pending m) t)%nat) by (apply count_occ_In; rewrite Ep; now left). rewrite (v_pend _ _ _ V i m t Hm) in C. unfold total in C.
    rewrite (sumw_zero (sumw (isf i t))), (sumw_zero (held (isf i t))) in C; [lia| |].
    + intros w [p x] Hw. now rewrite (W _ _ _ Hw).
    + intros p q Hp. now rewrite (QE _ _ Hp).
Qed.
End Props.

(** With a pool of its own for every member there is no deadlock in lossy mode: when nothing
    can go on by itself, everything has been done. *)
Theorem C63_no_deadlock_partial : forall gmax maxs home nq pools s tr, group_ok gmax maxs -> pools_ok maxs home nq pools -> NoDup home ->
  preach home (pool_new true gmax maxs nq pools) s tr -> quiet home s -> at_rest s.
Proof.
  intros gmax maxs home nq pools s tr Gok Pok ND R Q. destruct (reach_inv _ _ _ _ _ _ Pok _ _ R) as (_ & G & _).
  eapply quiet_rest; eauto. intros m I. eapply C33_no_deadlock; eauto. eapply quiet_group; eauto.
Qed.

(** *** Stop *)
(** A window that was flushed to the end stays there. *)
Lemma take_chunk_head g i m id alloc g' e j mj : nth_error (g_members g) i = Some m -> take_chunk g i m id alloc = Ok g' e -> nth_error (g_members g) j = Some mj ->
  exists m', nth_error (g_members g') j = Some m' /\ w_head (mb_win m') = w_head (mb_win mj).
Proof.
  intros Hm S Hj. unfold take_chunk in S. destruct (get_chunk _ _ _) as [[[w' x] o]|]; [|discriminate]. destruct (existsb is_ready x); [discriminate|]. destruct (gc_store (mb_win m) o) as [mw|] eqn:Es; [|discriminate]. injection S as <- <-.
  cbn [g_members]. rewrite nth_upd. destruct (Nat.eqb_spec j i) as [->|N]; [|eauto]. assert (i < length (g_members g))%nat by (apply nth_error_Some; congruence). destruct (Nat.ltb_spec i (length (g_members g))); [|lia].
  eexists. split; [reflexivity|]. cbn [set_win mb_win]. unfold gc_store in Es. destruct (Nat.ltb _ _); [|discriminate]. injection Es as <-. cbn. congruence.
Qed.
Lemma head_keep lossy gmax maxs g mon gl l g' e j m : ginv lossy gmax maxs g mon gl -> g_step g l = Ok g' e -> nth_error (g_members g) j = Some m ->
  exists m', nth_error (g_members g') j = Some m' /\ w_head (mb_win m) <= w_head (mb_win m').
Proof.
  intros G S Hj.
  assert (U : forall i mi m', nth_error (g_members g) i = Some mi -> w_head (mb_win mi) <= w_head (mb_win m') -> exists x, nth_error (upd (g_members g) i m') j = Some x /\ w_head (mb_win m) <= w_head (mb_win x)).
  { intros i mi m' Hi Le. rewrite nth_upd. destruct (Nat.eqb_spec j i) as [->|N]; [|exists m; split; [exact Hj|lia]]. assert (i < length (g_members g))%nat by (apply nth_error_Some; congruence). destruct (Nat.ltb_spec i (length (g_members g))); [|lia]. exists m'. split; [reflexivity|]. replace m with mi by congruence. exact Le. }
  assert (WH : forall x, w_head (mb_win (wake x)) = w_head (mb_win x)) by (intro x; unfold wake; now destruct (mb_pc x)).
  destruct l as [i id|i alloc|i jj|i| |i|i id]; cbn [g_step] in S; try (destruct (nth_error (g_members g) i) as [mi|] eqn:Hm; [|discriminate];
    destruct (member_data _ _ _ _ _ _ _ _ G Hm) as (mmax & hd & X1 & X2 & X3 & X4 & Mo); destruct (mo_win _ _ _ _ _ _ _ _ Mo) as (live & R & _)).
  - destruct (mb_pc mi) eqn:Hpc; try discriminate. destruct (Z.leb_spec 0 id); [|discriminate]. destruct (Z.ltb_spec id (2 ^ 63)); [|discriminate]. cbn [andb] in S.
    destruct (Z.leb_spec (w_head (mb_win mi)) id); [|injection S as <- <-; exists m; split; [exact Hj|lia]].
    destruct (gc_jump_rep mmax (mb_win mi) live id R ltac:(lia)) as (w' & live' & x & E & R' & B1 & B2 & B3 & Cs). rewrite E in S. destruct (report_then _ _); [|discriminate]. injection S as <- <-.
    cbn [set_member g_members]. eapply U; [exact Hm|]. cbn [set_win mb_win]. destruct Cs as [(_ & -> & _)|(_ & Cs & _)]; lia.
  - unfold member_step in S. destruct (mb_pc mi) as [|id|h k|id|id t [|]] eqn:Hpc; try discriminate.
    + destruct (_ <=? id).
      * destruct (gc_room_rep mmax (mb_win mi) live R) as (w' & live' & x & E & R' & B1 & B2 & Cs). rewrite E in S. destruct (report_then _ _); [|discriminate]. injection S as <- <-.
        cbn [set_member g_members]. eapply U; [exact Hm|]. cbn [set_win mb_win]. destruct Cs as [(_ & -> & _)|(_ & Cs & _)]; lia.
      * destruct (nth_error (w_slots _) _); [|discriminate]. injection S as <- <-. cbn [set_member g_members]. eapply U; [exact Hm|]. cbn. lia.
    + unfold stream_head_updated in S. destruct (nth_error (g_heads g) i) as [old|]; [|discriminate]. destruct (old <? h); [|discriminate]. destruct (w_head (g_win g) =? old).
      * destruct (flush_until _ _) as [[w' x]|]; [|discriminate]. cbn [g_members] in S. destruct (reported x) as [|r rs].
        -- rewrite Hm in S. injection S as <- <-. cbn [set_member g_members]. eapply U; [exact Hm|]. cbn. lia.
        -- rewrite nth_error_map, Hm in S. cbn [option_map] in S. injection S as <- <-. cbn [set_member g_members]. rewrite nth_upd, map_length, nth_error_map, Hj. cbn [option_map]. destruct (Nat.eqb_spec j i) as [->|N].
           ++ assert (i < length (g_members g))%nat by (apply nth_error_Some; congruence). destruct (Nat.ltb_spec i (length (g_members g))); [|lia]. eexists. split; [reflexivity|]. cbn [set_pc mb_win]. rewrite WH. replace m with mi by congruence. lia.
           ++ eexists. split; [reflexivity|]. rewrite WH. lia.
      * cbn [g_members] in S. rewrite Hm in S. injection S as <- <-. cbn [set_member g_members]. eapply U; [exact Hm|]. cbn. lia.
    + unfold group_get in S. destruct (_ <=? w_tail (mb_win mi)); [|discriminate].
      destruct (_ <=? u64 (w_tail (mb_win mi) - _)); [|destruct (take_chunk_head _ _ _ _ _ _ _ _ _ Hm S Hj) as (m' & H1 & H2); exists m'; split; [exact H1|lia]].
      set (target := u64 (w_tail (mb_win mi) - (Z.of_nat (w_max (g_win g)) - 1))) in *. set (ps := g_lossy g && (g_last g <? target)) in *.
      set (ms := if ps then map (post target) (g_members g) else g_members g) in *. set (m' := if ps then post target mi else mi) in *.
      match type of S with (if _ then Ok (set_member ?gg _ _) _ else _) = _ => set (g1 := gg) in * end.
      assert (Hi : nth_error (g_members g1) i = Some m') by (cbn [g1 g_members]; unfold ms, m'; destruct ps; [now rewrite nth_error_map, Hm|exact Hm]).
      assert (Hj1 : exists m1, nth_error (g_members g1) j = Some m1 /\ w_head (mb_win m1) = w_head (mb_win m)).
      { cbn [g1 g_members]. unfold ms. destruct ps; [|eauto]. rewrite nth_error_map, Hj. eexists. split; reflexivity. }
      destruct Hj1 as (m1 & Hj1 & Eh). destruct (w_head (g_win g) <? target).
      * injection S as <- <-. cbn [set_member g_members]. rewrite nth_upd. destruct (Nat.eqb_spec j i) as [->|N]; [|exists m1; split; [exact Hj1|lia]].
        assert (L : (i < length (g_members g1))%nat) by (apply nth_error_Some; congruence). cbn [g1 g_members] in L. cbn [g1 g_members]. destruct (Nat.ltb_spec i (length ms)); [|lia]. eexists. split; [reflexivity|].
        cbn [set_pc mb_win]. replace m' with m1 by congruence. lia.
      * destruct (take_chunk_head _ _ _ _ _ _ _ _ _ Hi S Hj1) as (m2 & H1 & H2). exists m2. split; [exact H1|lia].
    + destruct (_ <? t); [|destruct (take_chunk_head _ _ _ _ _ _ _ _ _ Hm S Hj) as (m' & H1 & H2); exists m'; split; [exact H1|lia]].
      injection S as <- <-. cbn [set_member g_members]. eapply U; [exact Hm|]. cbn. lia.
  - destruct (mb_pc mi) eqn:Hpc; try discriminate. destruct (nth_error (mb_pending mi) jj) as [t|] eqn:Ht0; [|discriminate].
    destruct (flush_until (mb_win mi) t) as [[w' x]|] eqn:E; [|discriminate]. destruct (report_then _ _); [|discriminate]. injection S as <- <-. cbn [set_member g_members]. eapply U; [exact Hm|]. cbn [mb_win].
    assert (Ht : 0 <= t < 2 ^ 64) by (pose proof (mo_pending _ _ _ _ _ _ _ _ Mo) as P; rewrite Forall_forall in P; apply P; eapply nth_error_In; eauto).
    destruct (Z.ltb_spec (w_head (mb_win mi)) t) as [L|L].
    + destruct (flush_until_rep mmax (mb_win mi) live t R Ht L) as (k & w2 & live' & F2 & R' & Hh & _). rewrite F2 in E. injection E as <- <-. lia.
    + unfold flush_until in E. destruct (Z.ltb_spec (w_head (mb_win mi)) t); [lia|]. injection E as <- <-. lia.
  - destruct (mb_pc mi) eqn:Hpc; try discriminate. pose proof (rp_range _ _ _ R) as (R1 & R2 & R3).
    destruct (flush_all_rep mmax (mb_win mi) live u64_max R ltac:(unfold u64_max; lia)) as (w' & E & R' & Hh & Ht). rewrite E in S.
    destruct (report_then _ _); [|discriminate]. injection S as <- <-. cbn [set_member g_members]. eapply U; [exact Hm|]. cbn [set_win mb_win]. rewrite Hh. eapply rep_head_max; eauto.
  - injection S as <- <-. cbn [g_members]. rewrite nth_error_map, Hj. eexists. split; [reflexivity|]. cbn. lia.
  - injection S as <- <-. cbn [set_member g_members]. eapply U; [exact Hm|]. rewrite WH. lia.
  - destruct (mb_pc mi); try discriminate. destruct (get_const _ _) as [[c|]|]; try discriminate. destruct (_ && _); [|discriminate]. injection S as <- <-. exists m. split; [exact Hj|lia].
Qed.

(** A stop of member [i] that has not taken place yet *)
Definition isfin (i : nat) (k : task) : nat := match k with THandle j _ true => if Nat.eqb j i then 1 else 0 | _ => 0 end.
Lemma fin_step lossy gmax maxs home nq s mon gl l s' e i : Forall (fun p => 0 < p < nq)%nat home -> (0 < nq)%nat -> pinv home nq s -> ginv lossy gmax maxs (pg s) mon gl -> pstep home s l = POk s' e ->
  (total (isfin i) s <= total (isfin i) s')%nat \/ exists m', nth_error (g_members (pg s')) i = Some m' /\ w_head (mb_win m') = u64_max.
Proof.
  intros Hh Hn V G S.
  assert (PA : forall t q, length q = nq -> sumw (sumw (isfin i)) (post_all 0 home t q) = sumw (sumw (isfin i)) q).
  { intros t q L. rewrite post_all_sum; [rewrite (sumw_zero (fun j => isfin i (TFlush j t))); [lia|reflexivity]|]. rewrite L. eapply Forall_impl; [|exact Hh]. cbn. intros; lia. }
  assert (D : forall w p k k' l0 s1 e1, nth_error (workers s) w = Some (p, WRun k) -> (isfin i k <= isfin i k')%nat -> g_do home s w p k' l0 = POk s1 e1 -> (total (isfin i) s <= total (isfin i) s1)%nat).
  { intros w p k k' l0 s1 e1 Hw Le Gd. unfold g_do in Gd. destruct (g_step (pg s) l0) as [| |g' e']; try discriminate. injection Gd as <- <-.
    pose proof (total_worker (isfin i) s w p (WRun k) (WRun k') g' (if g_last g' =? g_last (pg s) then queues s else post_all 0 home (g_last g') (queues s)) Hw) as T. cbn [held snd] in T.
    assert (Q : sumw (sumw (isfin i)) (if g_last g' =? g_last (pg s) then queues s else post_all 0 home (g_last g') (queues s)) = sumw (sumw (isfin i)) (queues s)) by (destruct (_ =? _); [reflexivity|]; apply PA, V).
    rewrite Q in T. unfold total in *. cbn [queues workers] in *. lia. }
  destruct l as [j ids fin|w|w|w alloc| |j]; cbn [pstep] in S.
  - left. destruct (nth_error home j) as [p|] eqn:Hp; [|discriminate]. destruct (valid ids); [|discriminate]. injection S as <- <-. unfold total. cbn [queues workers]. destruct (home_lt home nq Hh j p Hp) as [Lp _].
    rewrite enqueue_sum by (rewrite (v_nq _ _ _ V); lia). lia.
  - left. destruct (nth_error (workers s) w) as [[p [|k|k]]|] eqn:Hw; try discriminate. destruct (nth_error (queues s) p) as [[|k q]|] eqn:Hq; try discriminate. injection S as <- <-.
    pose proof (total_worker (isfin i) s w p WIdle (WLock k) (pg s) (upd (queues s) p q) Hw) as T. pose proof (sumw_upd (sumw (isfin i)) (queues s) p (k :: q) q Hq) as U. cbn [sumw] in U. cbn [held snd] in T. unfold total in *. cbn [queues workers] in *. lia.
  - left. destruct (nth_error (workers s) w) as [[p [|k|k]]|] eqn:Hw; try discriminate. destruct (existsb _ _); [discriminate|]. injection S as <- <-.
    pose proof (total_worker (isfin i) s w p (WLock k) (WRun k) (pg s) (queues s) Hw) as T. cbn [held snd] in T. unfold total, set_worker in *. cbn [queues workers] in *. lia.
  - destruct (nth_error (workers s) w) as [[p [|k|k]]|] eqn:Hw; try discriminate. unfold go in S. destruct (nth_error (g_members (pg s)) (who k)) as [m|] eqn:Hm; [|discriminate]. destruct k as [j ids fin|j t].
    + destruct (mb_pc m) eqn:Pc; try (left; eapply D; [exact Hw| |exact S]; cbn; lia). destruct ids as [|id r]; [destruct fin|].
      * destruct (Nat.eq_dec j i) as [->|N]; [|left; eapply D; [exact Hw| |exact S]; cbn; destruct (Nat.eqb_spec j i); lia].
        right. unfold g_do in S. cbn [g_step who] in S, Hm. rewrite Hm, Pc in S. destruct (member_data _ _ _ _ _ _ _ _ G Hm) as (mmax & hd & X1 & X2 & X3 & X4 & Mo). destruct (mo_win _ _ _ _ _ _ _ _ Mo) as (live & R & _).
        destruct (flush_all_rep mmax (mb_win m) live u64_max R ltac:(unfold u64_max; lia)) as (w' & E & R' & Ht1 & Ht2). rewrite E in S. destruct (report_then _ _) as [q|]; [|discriminate]. injection S as <- <-. cbn [pg set_member g_members].
        rewrite nth_upd, Nat.eqb_refl. assert (i < length (g_members (pg s)))%nat by (apply nth_error_Some; congruence). destruct (Nat.ltb_spec i (length (g_members (pg s)))); [|lia]. eexists. split; [reflexivity|exact Ht1].
      * left. injection S as <- <-. pose proof (total_worker (isfin i) s w p (WRun (THandle j [] false)) WIdle (pg s) (queues s) Hw) as T. cbn [held snd isfin] in T. unfold total, set_worker in *. cbn [queues workers] in *. lia.
      * left. eapply D; [exact Hw| |exact S]. cbn. lia.
    + left. eapply D; [exact Hw| |exact S]. cbn. lia.
  - left. destruct (stop_queue home nq Hn s V) as (L & _ & T). destruct (g_lossy (pg s)).
    + injection S as <- <-. unfold total. cbn [queues workers]. rewrite T. lia.
    + cbn [g_step] in S. injection S as <- <-. unfold total. cbn [queues workers]. rewrite PA by exact L. rewrite T. lia.
  - left. destruct (g_step (pg s) (LSpurious j)); try discriminate. injection S as <- <-. unfold total. cbn [queues workers]. lia.
Qed.
Lemma stops_fin i n : (i < n)%nat -> (0 < sumw (isfin i) (stops n))%nat.
Proof.
  intro L. assert (I : In (THandle i [] true) (stops n)) by (unfold stops; apply in_flat_map; exists i; split; [apply in_seq; lia|now left]). apply In_nth_error in I as [j Hj].
  pose proof (sumw_ge (isfin i) _ _ _ Hj) as G. cbn in G. rewrite Nat.eqb_refl in G. lia.
Qed.

(** After stop has been called, in either mode and with a pool for every member: when nothing
    can go on, stop has returned (the user's queue is empty and its thread idle), every
    window has been flushed to the end, and every chunk obtained from the allocator has
    been made ready. *)
Theorem C63_stop_partial : forall lossy gmax maxs home nq pools s1 tr1 s2 e2 s tr, group_ok gmax maxs -> pools_ok maxs home nq pools -> NoDup home ->
  preach home (pool_new lossy gmax maxs nq pools) s1 tr1 -> pstep home s1 PStop = POk s2 e2 -> preach home s2 s tr -> quiet home s ->
  at_rest s /\ (forall m, In m (g_members (pg s)) -> w_head (mb_win m) = u64_max) /\
  readies (chunk_events (tr1 ++ e2 ++ tr)) = map snd (allocs (chunk_events (tr1 ++ e2 ++ tr))).
Proof.
  intros lossy gmax maxs home nq pools s1 tr1 s2 e2 s tr Gok Pok ND R1 S2 R2 Q. pose proof Gok as (H1 & H2 & H3). pose proof Pok as (P1 & P2 & P3 & _).
  assert (R12 : preach home (pool_new lossy gmax maxs nq pools) s2 (tr1 ++ e2)) by (eapply pr_step; eauto).
  assert (RR : forall s tr, preach home s2 s tr -> preach home (pool_new lossy gmax maxs nq pools) s ((tr1 ++ e2) ++ tr)).
  { clear - R12. induction 1 as [|s tr l s' e R IH S]; [now rewrite app_nil_r|]. rewrite app_assoc. eapply pr_step; eauto. }
  assert (R : preach home (pool_new lossy gmax maxs nq pools) s (tr1 ++ e2 ++ tr)) by (rewrite app_assoc; exact (RR _ _ R2)).
  destruct (reach_inv _ _ _ _ _ _ Pok _ _ R1) as (V1 & G1 & _). destruct (reach_inv _ _ _ _ _ _ Pok _ _ R) as (V & G & _).
  assert (B := quiet_group _ _ _ _ _ _ Pok _ _ ND R Q).
  (* all idle *)
  assert (Idle : forall m, In m (g_members (pg s)) -> mb_pc m = PIdle).
  { destruct lossy; [intros m I; eapply C33_no_deadlock; eauto|].
    destruct (ginv_reach false gmax maxs _ _ H1 H2 H3 G1) as (mon1 & gl1 & _ & GI1). pose proof (gi_lossy _ _ _ _ _ _ GI1) as Lo. destruct (preach_run _ _ _ _ R2) as (ls & Hr). cbn [pstep] in S2. rewrite Lo in S2.
    destruct (g_step (pg s1) LPostStop) as [| |g2 e2'] eqn:St; try discriminate. injection S2 as <- <-. cbn [pg] in Hr. intros m I.
    exact (proj1 (proj1 (C53_stop false gmax maxs (pg s1) tr1 g2 e2' ls (pg s) tr Gok G1 St Hr B) m I)). }
  pose proof (quiet_rest _ _ _ _ _ _ Pok _ _ R Q Idle) as Rest. split; [exact Rest|].
  (* flushed *)
  assert (F : forall i m, nth_error (g_members (pg s)) i = Some m -> w_head (mb_win m) = u64_max \/ (0 < total (isfin i) s)%nat).
  { clear - R2 RR S2 V1 Pok P1 P2 P3 H1 H2 H3 Gok. induction R2 as [|s tr l s' e R IH S].
    - intros i m Hm. right. destruct (stop_queue home nq P3 s1 V1) as (L & _ & T). assert (Li : (i < length (g_members (pg s1)))%nat).
      { destruct (reach_inv _ _ _ _ _ _ Pok _ _ (RR _ _ (pr_init _ _))) as (V2 & _). rewrite (v_len _ _ _ V1), <- (v_len _ _ _ V2). apply nth_error_Some. congruence. }
      pose proof (stops_fin i _ Li). cbn [pstep] in S2. destruct (g_lossy (pg s1)).
      + injection S2 as <- <-. unfold total. cbn [queues workers]. rewrite T. lia.
      + cbn [g_step] in S2. injection S2 as <- <-. unfold total. cbn [queues workers]. rewrite post_all_sum; [rewrite T; lia|]. rewrite L. eapply Forall_impl; [|exact P2]. cbn. intros; lia.
    - intros i m' Hm'. destruct (reach_inv _ _ _ _ _ _ Pok _ _ (RR _ _ R)) as (V & G & _). destruct (ginv_reach lossy gmax maxs _ _ H1 H2 H3 G) as (mon & gl & _ & GI).
      destruct (reach_inv _ _ _ _ _ _ Pok _ _ (RR _ _ (pr_step _ _ _ _ _ _ _ R S))) as (V' & G' & _). destruct (ginv_reach lossy gmax maxs _ _ H1 H2 H3 G') as (mon' & gl' & _ & GI').
      assert (Li : (i < length (g_members (pg s)))%nat) by (rewrite (v_len _ _ _ V), <- (v_len _ _ _ V'); apply nth_error_Some; congruence). destruct (nth_error (g_members (pg s)) i) as [m|] eqn:Hm; [|apply nth_error_None in Hm; lia].
      destruct (IH i m Hm) as [A|A].
      + left. assert (X : w_head (mb_win m) <= w_head (mb_win m')).
        { destruct (pstep_group _ _ _ _ _ S) as [[E _]|(gl0 & E)]; [rewrite E in Hm'; replace m' with m by congruence; lia|]. destruct (head_keep _ _ _ _ _ _ _ _ _ _ _ GI E Hm) as (m2 & X1 & X2). replace m' with m2 by congruence. exact X2. }
        destruct (member_data _ _ _ _ _ _ _ _ GI' Hm') as (mmax & hd & _ & _ & _ & _ & Mo). destruct (mo_win _ _ _ _ _ _ _ _ Mo) as (live & Rl & _). pose proof (rep_head_max _ _ _ Rl). lia.
      + destruct (fin_step _ _ _ _ _ _ _ _ _ _ _ i P2 P3 V GI S) as [B|(m2 & B1 & B2)]; [right; lia|left; congruence]. }
  assert (Heads : forall m, In m (g_members (pg s)) -> w_head (mb_win m) = u64_max).
  { intros m I. apply In_nth_error in I as [i Hm]. destruct (F i m Hm) as [A|A]; [exact A|exfalso]. destruct Rest as (W & Qe & _). unfold total in A. rewrite (sumw_zero (sumw (isfin i))), (sumw_zero (held (isfin i))) in A; [lia| |].
    - intros w x Hw. unfold held. now rewrite (W x (nth_error_In _ _ Hw)).
    - intros p q Hp. now rewrite (Qe q (nth_error_In _ _ Hp)). }
  split; [exact Heads|].
  destruct (ginv_reach lossy gmax maxs _ _ H1 H2 H3 G) as (mon & gl & M & GI). pose proof (rp_range _ _ _ (j_rep _ _ _ _ (proj1 (gi_win _ _ _ _ _ _ GI)))) as (Q1 & Q2 & Q3). pose proof (zlen_nonneg gl).
  assert (Hmin : w_head (g_win (pg s)) = u64_max).
  { destruct (gi_min _ _ _ _ _ _ GI) as [Hj _]. apply In_nth_error in Hj as [j Hj]. destruct (gi_len _ _ _ _ _ _ GI) as [L1 L2]. assert (j < length (g_heads (pg s)))%nat by (apply nth_error_Some; congruence).
    destruct (nth_error (g_members (pg s)) j) as [mj|] eqn:Em; [|apply nth_error_None in Em; lia]. destruct (member_data _ _ _ _ _ _ _ _ GI Em) as (mxj & hj & Y1 & Y2 & Y3 & Y4 & Mj). rewrite Hj in Y2. injection Y2 as <-.
    pose proof (mo_head _ _ _ _ _ _ _ _ Mj) as Hh. rewrite (Idle mj (nth_error_In _ _ Em)) in Hh. rewrite Hh. apply Heads. eapply nth_error_In; eauto. }
  destruct (handover_pairs _ _ _ _ M) as (gone & A & C). rewrite (j_out _ _ _ _ (proj1 (gi_win _ _ _ _ _ _ GI))) in A. cbn [cmon0 cm_out app] in A. rewrite A, <- C, map_app.
  destruct gl as [|o gl]; [cbn [outs map]; now rewrite app_nil_r|]. exfalso. unfold zlen in Q2. cbn [length] in Q2. unfold u64_max in *. lia.
Qed.

(** *** It does come to rest. *)
Section Work.
Context (gmax n : nat).
Definition wA : nat := 3 * n + 1.
Definition wC : nat := wA * (n + 2 + gmax * mW n).
Definition tw (k : task) : nat := match k with THandle _ ids fin => 3 + wC * (length ids + if fin then 1 else 0) + length ids + (if fin then 1 else 0) | TFlush _ _ => 3 end.
Definition ww (x : nat * wstate) : nat := match snd x with WIdle => 0 | WLock k => tw k - 1 | WRun k => tw k - 2 end.
Definition pwork (s : pstate) : nat := (wA * work (pg s) + sumw (sumw tw) (queues s) + sumw ww (workers s))%nat.
Lemma tw_3 k : (3 <= tw k)%nat.
Proof. destruct k; cbn [tw]; lia. Qed.
End Work.

Lemma flush_weight gmax n t : forall c a, sumw (fun i => tw gmax n (TFlush i t)) (seq a c) = (3 * c)%nat.
Proof. induction c as [|k IH]; intro a; [reflexivity|]. cbn [seq sumw tw]. specialize (IH (S a)). cbn [tw] in IH. lia. Qed.
Lemma get_work lossy gmax maxs g mon gl i id g' e n : ginv lossy gmax maxs g mon gl -> n = length (g_members g) -> g_step g (LGet i id) = Ok g' e -> (work g' <= work g + (n + 2 + gmax * mW n))%nat /\ g_last g' = g_last g.
Proof.
  intros G -> S. cbn [g_step] in S. destruct (nth_error (g_members g) i) as [m|] eqn:Hm; [|discriminate]. set (n := length (g_members g)) in *.
  destruct (member_data _ _ _ _ _ _ _ _ G Hm) as (mmax & hd & X1 & X2 & X3 & X4 & Mo); destruct (mo_win _ _ _ _ _ _ _ _ Mo) as (live & R & _).
  destruct (mb_pc m) eqn:Hpc; try discriminate. destruct (Z.leb_spec 0 id); [|discriminate]. destruct (Z.ltb_spec id (2 ^ 63)); [|discriminate]. cbn [andb] in S.
  destruct (Z.leb_spec (w_head (mb_win m)) id); [|injection S as <- <-; split; [lia|reflexivity]].
  destruct (gc_jump_rep mmax (mb_win m) live id R ltac:(lia)) as (w' & live' & x & E & R' & B1 & B2 & B3 & Cs). rewrite E in S. destruct (report_then x (KLoop id)) as [p|] eqn:Er; [|discriminate]. injection S as <- <-. split; [|reflexivity].
  pose proof (set_member_work g i m (set_win m w' p) Hm) as W. fold n in W. rewrite pw_win, pw_pc in W. cbn [mb_pending] in W. assert (Hw : pw n m = (mP n * length (mb_pending m))%nat) by (unfold pw; rewrite Hpc; reflexivity).
  assert (K : (kw n {| mb_win := w'; mb_pc := mb_pc m; mb_pending := mb_pending m |} (KLoop id) <= 1 + gmax * mW n)%nat).
  { cbn [kw]. unfold todo. cbn [mb_win]. apply le_n_S. apply Nat.mul_le_mono_r. lia. }
  unfold report_then in Er. destruct (reported x) as [|h [|]]; [| |discriminate]; injection Er as <-; cbn [of_kont] in W; lia.
Qed.
Lemma stop_work lossy gmax maxs g mon gl i g' e n : ginv lossy gmax maxs g mon gl -> n = length (g_members g) -> g_step g (LStop i) = Ok g' e -> (work g' <= work g + (n + 1))%nat /\ g_last g' = g_last g.
Proof.
  intros G -> S. cbn [g_step] in S. destruct (nth_error (g_members g) i) as [m|] eqn:Hm; [|discriminate]. set (n := length (g_members g)) in *.
  destruct (mb_pc m) eqn:Hpc; try discriminate. destruct (flush_all _ _) as [[w' x]|]; [|discriminate]. destruct (report_then x KIdle) as [p|] eqn:Er; [|discriminate]. injection S as <- <-. split; [|reflexivity].
  pose proof (set_member_work g i m (set_win m w' p) Hm) as W. fold n in W. rewrite pw_win, pw_pc in W. cbn [mb_pending] in W. assert (Hw : pw n m = (mP n * length (mb_pending m))%nat) by (unfold pw; rewrite Hpc; reflexivity).
  unfold report_then in Er. destruct (reported x) as [|h [|]]; [| |discriminate]; injection Er as <-; cbn [of_kont kw] in W; lia.
Qed.

Lemma pwork_less lossy gmax maxs home nq s mon gl l s' e : Forall (fun p => 0 < p < nq)%nat home -> pinv home nq s -> ginv lossy gmax maxs (pg s) mon gl -> pinternal l = true -> pstep home s l = POk s' e ->
  (pwork gmax (length home) s' < pwork gmax (length home) s)%nat.
Proof.
  intros Hh V G I S. set (n := length home). assert (En : length (g_members (pg s)) = n) by apply V.
  assert (PA : forall t q, length q = nq -> sumw (sumw (tw gmax n)) (post_all 0 home t q) = (sumw (sumw (tw gmax n)) q + 3 * n)%nat).
  { intros t q L. rewrite post_all_sum; [|rewrite L; eapply Forall_impl; [|exact Hh]; cbn; intros; lia]. f_equal. fold n. apply flush_weight. }
  assert (WW : forall w p x y, nth_error (workers s) w = Some (p, x) -> (sumw (ww gmax n) (upd (workers s) w (p, y)) + ww gmax n (p, x) = sumw (ww gmax n) (workers s) + ww gmax n (p, y))%nat) by (intros; now apply sumw_upd).
  destruct l as [j ids fin|w|w|w alloc| |j]; try discriminate; cbn [pstep] in S.
  - destruct (nth_error (workers s) w) as [[p [|k|k]]|] eqn:Hw; try discriminate. destruct (nth_error (queues s) p) as [[|k q]|] eqn:Hq; try discriminate. injection S as <- <-. unfold pwork. cbn [pg queues workers].
    pose proof (WW w p WIdle (WLock k) Hw) as A. pose proof (sumw_upd (sumw (tw gmax n)) (queues s) p (k :: q) q Hq) as U. cbn [sumw] in U. cbn [ww snd] in A. pose proof (tw_3 gmax n k). lia.
  - destruct (nth_error (workers s) w) as [[p [|k|k]]|] eqn:Hw; try discriminate. destruct (existsb _ _); [discriminate|]. injection S as <- <-. unfold pwork, set_worker. cbn [pg queues workers].
    pose proof (WW w p (WLock k) (WRun k) Hw) as A. cbn [ww snd] in A. pose proof (tw_3 gmax n k). lia.
  - destruct (nth_error (workers s) w) as [[p [|k|k]]|] eqn:Hw; try discriminate. unfold go in S. destruct (nth_error (g_members (pg s)) (who k)) as [m|] eqn:Hm; [|discriminate].
    (* a step of the group that is internal there *)
    assert (DI : forall k' l0 s1 e1, internal l0 = true -> (tw gmax n k' - 2 <= tw gmax n k - 2)%nat -> g_do home s w p k' l0 = POk s1 e1 -> (pwork gmax n s1 < pwork gmax n s)%nat).
    { intros k' l0 s1 e1 I0 Le Gd. unfold g_do in Gd. destruct (g_step (pg s) l0) as [| |g' e'] eqn:St; try discriminate. injection Gd as <- <-. pose proof (internal_work _ _ _ _ _ _ _ _ _ G I0 St) as W. unfold pwork. cbn [pg queues workers].
      pose proof (WW w p (WRun k) (WRun k') Hw) as A. cbn [ww snd] in A.
      assert (Q : (sumw (sumw (tw gmax n)) (if Z.eqb (g_last g') (g_last (pg s)) then queues s else post_all 0 home (g_last g') (queues s)) <= sumw (sumw (tw gmax n)) (queues s) + 3 * n)%nat) by (destruct (_ =? _); [lia|]; rewrite PA by apply V; lia).
      assert (M : (wA n * work g' + wA n <= wA n * work (pg s))%nat) by (rewrite <- Nat.mul_succ_r; apply Nat.mul_le_mono_l; lia). unfold wA at 2 in M. lia. }
    destruct k as [j ids fin|j t]; [|eapply DI; [| |exact S]; [reflexivity|cbn; lia]].
    assert (Hp : forall l0, l0 = LStep j alloc -> g_do home s w p (THandle j ids fin) l0 = POk s' e -> (pwork gmax n s' < pwork gmax n s)%nat) by (intros l0 -> E; eapply DI; [| |exact E]; [reflexivity|lia]).
    destruct (mb_pc m) eqn:Pc; try (eapply Hp; [reflexivity|exact S]; fail). destruct ids as [|id r]; [destruct fin|].
    + unfold g_do in S. destruct (g_step (pg s) (LStop j)) as [| |g' e'] eqn:St; try discriminate. injection S as <- <-. destruct (stop_work _ _ _ _ _ _ _ _ _ n G (eq_sym En) St) as [W E]. rewrite E, Z.eqb_refl. unfold pwork. cbn [pg queues workers].
      pose proof (WW w p (WRun (THandle j [] true)) (WRun (THandle j [] false)) Hw) as A. cbn [ww snd tw length] in A. rewrite Nat.mul_1_r, Nat.mul_0_r in A.
      assert (M : (wA n * work g' <= wA n * work (pg s) + wC gmax n)%nat) by (unfold wC; rewrite <- Nat.mul_add_distr_l; apply Nat.mul_le_mono_l; lia). lia.
    + injection S as <- <-. unfold pwork, set_worker. cbn [pg queues workers]. pose proof (WW w p (WRun (THandle j [] false)) WIdle Hw) as A. cbn [ww snd tw length] in A. lia.
    + unfold g_do in S. destruct (g_step (pg s) (LGet j id)) as [| |g' e'] eqn:St; try discriminate. injection S as <- <-. destruct (get_work _ _ _ _ _ _ _ _ _ _ n G (eq_sym En) St) as [W E]. rewrite E, Z.eqb_refl. unfold pwork. cbn [pg queues workers].
      pose proof (WW w p (WRun (THandle j (id :: r) fin)) (WRun (THandle j r fin)) Hw) as A. cbn [ww snd tw length] in A.
      assert (M : (wA n * work g' <= wA n * work (pg s) + wC gmax n)%nat) by (unfold wC; rewrite <- Nat.mul_add_distr_l; apply Nat.mul_le_mono_l; lia).
      assert (X : (wC gmax n * (S (length r) + if fin then 1 else 0) = wC gmax n * (length r + if fin then 1 else 0) + wC gmax n)%nat) by (rewrite Nat.add_succ_l; apply Nat.mul_succ_r). rewrite X in A. lia.
Qed.
Definition pspurious (l : plabel) : bool := match l with PSpur _ => true | _ => false end.
Definition pcount (p : plabel -> bool) (l : list plabel) : nat := length (filter p l).
(** From any state, if nothing more arrives, the number of steps is bounded, but for what
    spurious wakeups add; this holds for any pools. *)
Theorem C63_terminates : forall lossy gmax maxs home nq pools s tr, group_ok gmax maxs -> pools_ok maxs home nq pools -> preach home (pool_new lossy gmax maxs nq pools) s tr ->
  exists bound each, forall ls s' e, Forall (fun l => pinternal l = true \/ pspurious l = true) ls -> prun home s ls = Some (s', e) -> (pcount pinternal ls <= bound + each * pcount pspurious ls)%nat.
Proof.
  intros lossy gmax maxs home nq pools s tr Gok Pok R. pose proof Gok as (H1 & H2 & H3). pose proof Pok as (P1 & P2 & P3 & _). exists (pwork gmax (length home) s), (wA (length home)). intro ls. revert s tr R.
  induction ls as [|l ls IH]; intros s tr R s' e F Hr; [cbn; lia|]. apply Forall_cons_iff in F as [Fl F]. cbn [prun] in Hr. destruct (pstep home s l) as [| |s1 e1] eqn:S; try discriminate. destruct (prun home s1 ls) as [[s2 e2]|] eqn:Hr1; [|discriminate].
  specialize (IH s1 (tr ++ e1) (pr_step _ _ _ _ _ _ _ R S) _ _ F Hr1). destruct (reach_inv _ _ _ _ _ _ Pok _ _ R) as (V & G & _). destruct (ginv_reach lossy gmax maxs _ _ H1 H2 H3 G) as (mon & gl & _ & GI). unfold pcount in *. cbn [filter]. destruct Fl as [Fl|Fl].
  - pose proof (pwork_less _ _ _ _ _ _ _ _ _ _ _ P2 V GI Fl S). rewrite Fl. destruct l; try discriminate; cbn [pspurious length]; lia.
  - destruct l as [ | | | | |i]; try discriminate. cbn [pspurious pinternal length] in *. cbn [pstep] in S. destruct (g_step (pg s) (LSpurious i)) as [| |g' e'] eqn:St; try discriminate. injection S as <- <-.
    assert (W : (work g' <= work (pg s) + 1)%nat).
    { cbn [g_step] in St. destruct (nth_error (g_members (pg s)) i) as [m|] eqn:Hm; [|discriminate]. injection St as <- <-. pose proof (set_member_work (pg s) i m (wake m) Hm). pose proof (pw_wake (length (g_members (pg s))) m). lia. }
    unfold pwork in *. cbn [pg queues workers] in *. assert (M : (wA (length home) * work g' <= wA (length home) * work (pg s) + wA (length home))%nat) by (rewrite <- Nat.mul_succ_r; apply Nat.mul_le_mono_l; lia). rewrite Nat.mul_succ_r. lia.
Qed.

(** *** A pool that is shared: missing in C63_no_deadlock_partial and C63_stop_partial, which are false there *)
(** The documentation (/repo/doc/recv-chunk-group.rst:66-69) asks for at least as many threads
    as streams when the streams share a pool.  That is not enough, and no number is: two
    streams, one pool of any number of threads, and one handler that has received a packet for
    each of as many chunks (the pool's threads are blocked one after the other by the waiting stream's own flushes). *)
Section Shared.
Definition win1 (o : option Z) (h t : Z) : window := {| w_slots := [o]; w_head := h; w_tail := t; w_hpos := 0; w_tpos := 0 |}.
Definition keep (id : Z) : option Z := Some id.
Definition sh_home : list nat := [1; 1]%nat.
(** Member 0 waits for member 1 to get to chunk [r]. *)
Definition sh_group (r : Z) (b : bool) (pend : list Z) : group :=
  {| g_win := win1 (Some (r - 1)) (r - 1) r; g_heads := [r; r - 1]; g_last := r; g_lossy := true;
     g_members := [{| mb_win := win1 None r r; mb_pc := PWait r r b; mb_pending := pend |}; {| mb_win := win1 None (r - 1) (r - 1); mb_pc := PIdle; mb_pending := [r] |}] |}.
(** ... and the threads of the pool but for the first and those in [idle] are blocked by its lock *)
Definition sh_state (r : Z) (pend : list Z) (ids : list Z) (blocked : list Z) (idle : nat) : pstate :=
  {| pg := sh_group r false pend; queues := [[]; [TFlush 1 r]];
     workers := (0%nat, WIdle) :: (1%nat, WRun (THandle 0 ids false)) :: map (fun t => (1%nat, WLock (TFlush 0 t))) blocked ++ repeat (1%nat, WIdle) idle |}.

Definition mem (w : window) (p : gpc) (q : list Z) : member := {| mb_win := w; mb_pc := p; mb_pending := q |}.
Definition sh_members (m0 m1 : member) (w : window) (hs : list Z) (r : Z) : group := {| g_win := w; g_heads := hs; g_last := r; g_lossy := true; g_members := [m0; m1] |}.
Lemma u64_id x : 0 <= x < 2 ^ 64 -> u64 x = x.
Proof. intro. unfold u64. apply Z.mod_small. lia. Qed.
Ltac zdec := repeat (first
  [ progress cbn -[Z.add Z.sub Z.ltb Z.leb Z.eqb u64 Z.pow existsb]
  | progress unfold g_step, sh_group, win1, sh_members, mem, member_step, stream_head_updated, take_chunk, group_get, set_member, set_win, set_pc, post, wake, report_then, flush_until, flush_head_report, flush_head, w_empty, w_max, set_range, chunk_pos, gc_jump, gc_room, gc_store, get_chunk, next_pos
  | match goal with
    | |- context [?a <? ?b] => first [rewrite (proj2 (Z.ltb_lt a b)) by lia | rewrite (proj2 (Z.ltb_ge a b)) by lia]
    | |- context [?a <=? ?b] => first [rewrite (proj2 (Z.leb_le a b)) by lia | rewrite (proj2 (Z.leb_gt a b)) by lia]
    | |- context [?a =? ?b] => first [rewrite (proj2 (Z.eqb_eq a b)) by lia | rewrite (proj2 (Z.eqb_neq a b)) by lia]
    | |- context [u64 ?a] => rewrite (u64_id a) by lia
    end ]).
Section Round.
Context (r : Z) (Hr : 1 <= r < 2 ^ 63 - 1) (pend : list Z).
Definition h1 : group := sh_members (mem (win1 None r r) (PWait r r false) pend) (mem (win1 None r r) (PReport r KIdle) []) (win1 (Some (r - 1)) (r - 1) r) [r; r - 1] r.
Definition h2 : group := sh_members (mem (win1 None r r) (PWait r r true) pend) (mem (win1 None r r) PIdle []) (win1 None r r) [r; r] r.
Definition h3 : group := sh_members (mem (win1 (Some r) r (r + 1)) (PLoop r) pend) (mem (win1 None r r) PIdle []) (win1 (Some r) r (r + 1)) [r; r] r.
Definition h4 : group := sh_members (mem (win1 (Some r) r (r + 1)) PIdle pend) (mem (win1 None r r) PIdle []) (win1 (Some r) r (r + 1)) [r; r] r.
Definition h5 : group := sh_members (mem (win1 (Some r) r (r + 1)) (PLoop (r + 1)) pend) (mem (win1 None r r) PIdle []) (win1 (Some r) r (r + 1)) [r; r] r.
Definition h6 : group := sh_members (mem (win1 None (r + 1) (r + 1)) (PReport (r + 1) (KAlloc (r + 1))) pend) (mem (win1 None r r) PIdle []) (win1 (Some r) r (r + 1)) [r; r] r.
Definition h7 : group := sh_members (mem (win1 None (r + 1) (r + 1)) (PAlloc (r + 1)) pend) (mem (win1 None r r) PIdle []) (win1 (Some r) r (r + 1)) [r + 1; r] r.
Lemma sh_1 : g_step (sh_group r false pend) (LFlush 1 0) = Ok h1 [].
Proof. zdec. reflexivity. Qed.
Lemma sh_2 : g_step h1 (LStep 1 keep) = Ok h2 [GChunk (EReady (r - 1)); GChunk (EHead r)].
Proof. unfold h1, h2. zdec. rewrite Z.sub_add, Z.min_id. reflexivity. Qed.
Lemma sh_3 : g_step h2 (LStep 0 keep) = Ok h3 [GChunk (EAlloc r (Some r))].
Proof. unfold h2, h3. zdec. rewrite Z.sub_diag. reflexivity. Qed.
Lemma sh_4 : g_step h3 (LStep 0 keep) = Ok h4 [].
Proof. unfold h3, h4. zdec. rewrite Z.sub_diag. reflexivity. Qed.
Lemma sh_5 : g_step h4 (LGet 0 (r + 1)) = Ok h5 [].
Proof. unfold h4, h5. zdec. reflexivity. Qed.
Lemma sh_6 : g_step h5 (LStep 0 keep) = Ok h6 [].
Proof. unfold h5, h6. zdec. reflexivity. Qed.
Lemma sh_7 : g_step h6 (LStep 0 keep) = Ok h7 [].
Proof. unfold h6, h7. zdec. reflexivity. Qed.
Lemma sh_8 : g_step h7 (LStep 0 keep) = Ok (sh_group (r + 1) false (pend ++ [r + 1])) [].
Proof. unfold h7, sh_group. zdec. change (Z.of_nat 1 - 1) with 0. rewrite Z.sub_0_r, Z.add_simpl_r. reflexivity. Qed.

(** the threads: the user's, the one of member 0, and the next idle one *)
Definition Ws (pre post : list (nat * wstate)) (x y : wstate) : list (nat * wstate) := (0%nat, WIdle) :: (1%nat, x) :: pre ++ (1%nat, y) :: post.
Lemma Ws_0 pre post x y : nth_error (Ws pre post x y) 1 = Some (1%nat, x).
Proof. reflexivity. Qed.
Lemma Ws_1 pre post x y : nth_error (Ws pre post x y) (2 + length pre) = Some (1%nat, y).
Proof. unfold Ws. cbn [nth_error Nat.add]. rewrite nth_error_app2, Nat.sub_diag by lia. reflexivity. Qed.
Lemma Ws_upd0 pre post x y z : upd (Ws pre post x y) 1 (1%nat, z) = Ws pre post z y.
Proof. reflexivity. Qed.
Lemma Ws_upd1 pre post x y z : upd (Ws pre post x y) (2 + length pre) (1%nat, z) = Ws pre post x z.
Proof. unfold Ws. cbn [upd Nat.add]. do 2 f_equal. induction pre as [|a pre IH]; cbn [app length upd]; [reflexivity|]. now rewrite IH. Qed.
Lemma sh_do pre post x y q g g' e l k : g_step g l = Ok g' e -> g_last g' = g_last g -> forall w z, upd (Ws pre post x y) w (1%nat, WRun k) = z ->
  g_do sh_home {| pg := g; queues := q; workers := Ws pre post x y |} w 1 k l = POk {| pg := g'; queues := q; workers := z |} e.
Proof. intros S L w z <-. unfold g_do. cbn [pg queues workers]. now rewrite S, L, Z.eqb_refl. Qed.
Context (s0 : pstate).
Definition can (s : pstate) : Prop := exists tr, preach sh_home s0 s tr.
Lemma can_step s l s' e : pstep sh_home s l = POk s' e -> can s -> can s'.
Proof. intros S (tr & R). exists (tr ++ e). econstructor; eauto. Qed.
Definition at_ (g : group) (q : list task) (pre post : list (nat * wstate)) (x y : wstate) : pstate := {| pg := g; queues := [[]; q]; workers := Ws pre post x y |}.
Lemma take1 g k q pre post x : can (at_ g (k :: q) pre post x WIdle) -> can (at_ g q pre post x (WLock k)).
Proof. apply (can_step _ (PTake (2 + length pre)) _ []). cbn [pstep at_ workers]. rewrite Ws_1. cbn [at_ queues nth_error pg]. now rewrite Ws_upd1. Qed.
Lemma lock1 g k q pre post x : existsb (running (who k)) (Ws pre post x (WLock k)) = false -> can (at_ g q pre post x (WLock k)) -> can (at_ g q pre post x (WRun k)).
Proof. intro E. apply (can_step _ (PLock (2 + length pre)) _ []). cbn [pstep at_ workers]. rewrite Ws_1, E. unfold set_worker. cbn [at_ queues pg workers]. now rewrite Ws_upd1. Qed.
Lemma go0 g g' e q pre post y ids fin m : nth_error (g_members g) 0 = Some m -> mb_pc m <> PIdle -> g_step g (LStep 0 keep) = Ok g' e -> g_last g' = g_last g ->
  can (at_ g q pre post (WRun (THandle 0 ids fin)) y) -> can (at_ g' q pre post (WRun (THandle 0 ids fin)) y).
Proof.
  intros Hm Pc S L. apply (can_step _ (PGo 1 keep) _ e). cbn [pstep at_ workers]. rewrite Ws_0. unfold go. cbn [who at_ pg]. rewrite Hm.
  assert (D : g_do sh_home (at_ g q pre post (WRun (THandle 0 ids fin)) y) 1 1 (THandle 0 ids fin) (LStep 0 keep) = POk (at_ g' q pre post (WRun (THandle 0 ids fin)) y) e) by (apply sh_do; auto).
  destruct (mb_pc m); [congruence|exact D..].
Qed.
Lemma go1 g g' e q pre post x ids fin m : nth_error (g_members g) 1 = Some m -> mb_pc m <> PIdle -> g_step g (LStep 1 keep) = Ok g' e -> g_last g' = g_last g ->
  can (at_ g q pre post x (WRun (THandle 1 ids fin))) -> can (at_ g' q pre post x (WRun (THandle 1 ids fin))).
Proof.
  intros Hm Pc S L. apply (can_step _ (PGo (2 + length pre) keep) _ e). cbn [pstep at_ workers]. rewrite Ws_1. unfold go. cbn [who at_ pg]. rewrite Hm.
  assert (D : g_do sh_home (at_ g q pre post x (WRun (THandle 1 ids fin))) (2 + length pre) 1 (THandle 1 ids fin) (LStep 1 keep) = POk (at_ g' q pre post x (WRun (THandle 1 ids fin))) e) by (apply sh_do; auto; apply Ws_upd1).
  destruct (mb_pc m); [congruence|exact D..].
Qed.
Lemma sh_round pre post ids : existsb (running 1) (pre ++ (1%nat, WLock (TFlush 1 r)) :: post) = false ->
  can (at_ (sh_group r false pend) [TFlush 1 r] pre post (WRun (THandle 0 (r + 1 :: ids) false)) WIdle) ->
  can (at_ (sh_group (r + 1) false (pend ++ [r + 1])) [TFlush 1 (r + 1)] pre post (WRun (THandle 0 ids false)) (WLock (TFlush 0 (r + 1)))).
Proof.
  intros E C. apply take1 in C. apply lock1 in C; [|unfold Ws; cbn [existsb running snd who Nat.eqb orb]; exact E].
  (* the flush of member 1 *)
  assert (C1 : can (at_ h1 [] pre post (WRun (THandle 0 (r + 1 :: ids) false)) (WRun (THandle 1 [] false)))).
  { revert C. apply (can_step _ (PGo (2 + length pre) keep) _ []). cbn [pstep at_ workers]. rewrite Ws_1. unfold go. cbn [who at_ pg sh_group g_members nth_error mb_pending idx]. rewrite Z.eqb_refl. apply sh_do; [exact sh_1|reflexivity|apply Ws_upd1]. }
  eapply go1 in C1; [|reflexivity|discriminate|exact sh_2|reflexivity].
  assert (C2 : can (at_ h2 [] pre post (WRun (THandle 0 (r + 1 :: ids) false)) WIdle)).
  { revert C1. apply (can_step _ (PGo (2 + length pre) keep) _ []). cbn [pstep at_ workers]. rewrite Ws_1. unfold go. cbn [who at_ pg h2 sh_members g_members nth_error mem mb_pc]. unfold set_worker. cbn [at_ pg queues workers]. now rewrite Ws_upd1. }
  (* member 0 goes on *)
  eapply go0 in C2; [|reflexivity|discriminate|exact sh_3|reflexivity]. eapply go0 in C2; [|reflexivity|discriminate|exact sh_4|reflexivity].
  assert (C5 : can (at_ h5 [] pre post (WRun (THandle 0 ids false)) WIdle)).
  { revert C2. apply (can_step _ (PGo 1 keep) _ []). cbn [pstep at_ workers]. rewrite Ws_0. unfold go. cbn [who at_ pg h4 sh_members g_members nth_error mem mb_pc]. fold h4. apply sh_do; [exact sh_5|reflexivity|reflexivity]. }
  eapply go0 in C5; [|reflexivity|discriminate|exact sh_6|reflexivity]. eapply go0 in C5; [|reflexivity|discriminate|exact sh_7|reflexivity].
  assert (C8 : can (at_ (sh_group (r + 1) false (pend ++ [r + 1])) [TFlush 0 (r + 1); TFlush 1 (r + 1)] pre post (WRun (THandle 0 ids false)) WIdle)).
  { revert C5. apply (can_step _ (PGo 1 keep) _ []). cbn [pstep at_ workers]. rewrite Ws_0. unfold go. cbn [who at_ pg]. assert (X : nth_error (g_members h7) 0 = Some (mem (win1 None (r + 1) (r + 1)) (PAlloc (r + 1)) pend)) by reflexivity. rewrite X. cbn [mem mb_pc].
    unfold g_do. cbn [pg queues workers at_]. rewrite sh_8. cbn [sh_group g_last h7 sh_members]. rewrite (proj2 (Z.eqb_neq (r + 1) r)) by lia. reflexivity. }
  now apply take1 in C8.
Qed.
End Round.

Fixpoint zs (a : Z) (n : nat) : list Z := match n with O => [] | S n => a :: zs (a + 1) n end.
Lemma zs_valid : forall n a, 0 <= a -> a + Z.of_nat n < 2 ^ 63 -> valid (zs a n) = true.
Proof. induction n as [|n IH]; intros a H1 H2; [reflexivity|]. cbn [zs valid forallb]. rewrite (proj2 (Z.leb_le 0 a)), (proj2 (Z.ltb_lt a (2 ^ 63))) by lia. apply IH; lia. Qed.
Lemma idle_run i n : existsb (running i) (repeat (1%nat, WIdle) n) = false.
Proof. induction n; cbn; auto. Qed.
Lemma blocked_run i l : existsb (running i) (map (fun t => (1%nat, WLock (TFlush 0 t))) l) = false.
Proof. induction l; cbn; auto. Qed.
Lemma sh_rounds s0 : forall k r pend blocked, 1 <= r -> r + Z.of_nat k < 2 ^ 63 -> can s0 (sh_state r pend (zs (r + 1) k) blocked k) -> exists r' pend' blocked', can s0 (sh_state r' pend' [] blocked' 0).
Proof.
  induction k as [|k IH]; intros r pend blocked H1 H2 C; [eauto|]. apply (IH (r + 1) (pend ++ [r + 1]) (blocked ++ [r + 1])); [lia|lia|].
  unfold sh_state in *. rewrite map_app, <- app_assoc. cbn [map app]. apply (sh_round r ltac:(lia) pend s0 _ (repeat (1%nat, WIdle) k) (zs (r + 1 + 1) k)); [|exact C].
  rewrite existsb_app, blocked_run. cbn [existsb orb running snd]. apply idle_run.
Qed.
Definition sh_start (T : nat) : pstate := pool_new true 1 [1; 1]%nat 2 (0%nat :: repeat 1%nat T).
Lemma map_idle k : map (fun p : nat => (p, WIdle)) (repeat 1%nat k) = repeat (1%nat, WIdle) k.
Proof. induction k as [|k IH]; cbn; congruence. Qed.
Lemma sh_begin k : Z.of_nat k + 2 < 2 ^ 63 -> can (sh_start (S (S k))) (sh_state 1 [1] (zs 2 k) [1] k).
Proof.
  intro Hk. set (s0 := sh_start (S (S k))). assert (C : can s0 s0) by (exists []; constructor). revert C. unfold s0 at 2, sh_start, pool_new. cbn [repeat map]. rewrite map_idle. set (idle := repeat (1%nat, WIdle) k). set (ids := zs 2 k). intro C.
  eapply (can_step s0 _ (PArrive 0 (0 :: 1 :: ids) false)) in C; [|cbn [pstep]; change (valid (0 :: 1 :: ids)) with (valid ids); unfold ids at 1; rewrite zs_valid by lia; reflexivity].
  eapply (can_step s0 _ (PTake 1)) in C; [|reflexivity].
  eapply (can_step s0 _ (PLock 1)) in C; [|cbn [pstep upd workers nth_error existsb running snd who orb]; unfold idle at 1; rewrite idle_run; reflexivity].
  do 8 (eapply (can_step s0 _ (PGo 1 keep)) in C; [|vm_compute; reflexivity]).
  eapply (can_step s0 _ (PTake 2)) in C; [|vm_compute; reflexivity]. exact C.
Qed.

(** From then on, whatever happens, all the threads of the pool are stuck. *)
Record stuck (r : Z) (pend blocked : list Z) (called : bool) (s : pstate) : Prop := {
  k_g : exists b, pg s = sh_group r b pend;
  k_q : exists u q0 q1, queues s = [q0; q1] /\ workers s = (0%nat, u) :: (1%nat, WRun (THandle 0 [] false)) :: map (fun t => (1%nat, WLock (TFlush 0 t))) blocked /\
        (u = WLock (THandle 0 [] true) \/ u = WIdle /\ ((called = false /\ q0 = []) \/ exists t, q0 = THandle 0 [] true :: t)) }.
Lemma nth_blocked blocked w p x : nth_error (map (fun t => (1%nat, WLock (TFlush 0 t))) blocked) w = Some (p, x) -> exists t, p = 1%nat /\ x = WLock (TFlush 0 t).
Proof. rewrite nth_error_map. destruct (nth_error blocked w); cbn; [|discriminate]. injection 1 as <- <-. eauto. Qed.
Lemma stuck_step r pend blocked called s l s' e : stuck r pend blocked called s -> pstep sh_home s l = POk s' e ->
  e = [] /\ stuck r pend blocked (called || match l with PStop => true | _ => false end) s'.
Proof.
  intros [(b & Eg) (u & q0 & q1 & Eq & Ew & U)] S. destruct s as [g q ws]. cbn [pg queues workers] in *. subst g q ws. destruct l as [i ids fin|w|w|w alloc| |i]; cbn [pstep pg queues workers] in S; rewrite ?orb_false_r.
  - destruct i as [|[|[|i]]]; cbn in S; try discriminate; (destruct (valid ids); [|discriminate]; injection S as <- <-; split; [reflexivity|]; split; [now exists b|]; first [exists u, q0, (q1 ++ [THandle 0 ids fin]); solve [auto]|exists u, q0, (q1 ++ [THandle 1 ids fin]); solve [auto]]).
  - destruct w as [|[|w]]; cbn [nth_error] in S; [|discriminate|].
    + destruct U as [->|(-> & U)]; [discriminate|]. destruct U as [[_ ->]|(t & ->)]; [discriminate|]. injection S as <- <-. split; [reflexivity|]. split; [now exists b|]. exists (WLock (THandle 0 [] true)), t, q1. auto.
    + destruct (nth_error _ w) as [[p x]|] eqn:N; [|discriminate]. apply nth_blocked in N as (t & -> & ->). discriminate.
  - destruct w as [|[|w]]; cbn [nth_error] in S; [|discriminate|].
    + destruct U as [->|(-> & U)]; [|discriminate]. discriminate.
    + destruct (nth_error _ w) as [[p x]|] eqn:N; [|discriminate]. apply nth_blocked in N as (t & -> & ->). cbn [who existsb running snd Nat.eqb] in S. rewrite orb_true_r in S. discriminate.
  - destruct w as [|[|w]]; cbn [nth_error] in S.
    + destruct U as [->|(-> & U)]; discriminate.
    + unfold go, g_do in S. cbn [who pg sh_group g_members nth_error mb_pc g_step member_step g_win win1 w_head] in S. destruct b; [|discriminate]. rewrite (proj2 (Z.ltb_lt (r - 1) r)) in S by lia. cbn [set_member g_last sh_group] in S. rewrite Z.eqb_refl in S. injection S as <- <-. split; [reflexivity|]. split; [now exists false|]. exists u, q0, q1. auto.
    + destruct (nth_error _ w) as [[p x]|] eqn:N; [|discriminate]. apply nth_blocked in N as (t & -> & ->). discriminate.
  - cbn [sh_group g_lossy] in S. injection S as <- <-. split; [reflexivity|]. rewrite orb_true_r. split; [now exists b|]. exists u, (q0 ++ stops 2), q1. split; [reflexivity|]. split; [reflexivity|]. destruct U as [->|(-> & U)]; [now left|right]. split; [reflexivity|]. right. destruct U as [[_ ->]|(t & ->)]; cbn; eauto.
  - destruct i as [|[|[|i]]]; cbn in S; try discriminate; (injection S as <- <-; split; [reflexivity|]; split; [now (exists true + exists b)|]; exists u, q0, q1; auto).
Qed.
End Shared.
(** The user's call of stop has returned. *)
Definition returned (s : pstate) : Prop := nth_error (workers s) 0 = Some (0%nat, WIdle) /\ nth_error (queues s) 0 = Some [].
Theorem C63_shared_refuted : forall T, (2 <= T)%nat -> Z.of_nat T < 2 ^ 63 ->
  group_ok 1 [1; 1]%nat /\ pools_ok [1; 1]%nat [1; 1]%nat 2 (0%nat :: repeat 1%nat T) /\
  exists s tr, preach [1; 1]%nat (pool_new true 1 [1; 1]%nat 2 (0%nat :: repeat 1%nat T)) s tr /\
    (forall s' tr', preach [1; 1]%nat s s' tr' -> tr' = [] /\ forall w x, nth_error (workers s') w = Some (1%nat, x) -> x <> WIdle) /\
    exists s1, pstep [1; 1]%nat s PStop = POk s1 [] /\ forall s2 tr2, preach [1; 1]%nat s1 s2 tr2 -> ~ returned s2.
Proof.
  intros T HT HZ. split; [split; [lia|split; [repeat constructor|discriminate]]|]. split.
  { split; [reflexivity|]. split; [repeat constructor|]. split; [lia|]. split; [now left|]. destruct T; [lia|]. repeat constructor; right; now left. }
  destruct T as [|[|k]]; try lia. destruct (sh_rounds _ k 1 [1] [1] ltac:(lia) ltac:(lia) (sh_begin k ltac:(lia))) as (r & pend & blocked & tr & R).
  assert (K : stuck r pend blocked false (sh_state r pend [] blocked 0)).
  { split; [now exists false|]. exists WIdle, [], [TFlush 1 r]. cbn [sh_state queues workers repeat]. rewrite app_nil_r. split; [reflexivity|]. split; [reflexivity|]. right. auto. }
  assert (St : forall c s s' tr', stuck r pend blocked c s -> preach sh_home s s' tr' -> tr' = [] /\ exists c', (c = true -> c' = true) /\ stuck r pend blocked c' s').
  { intros c s s' tr' Ks P. induction P as [|s1 t1 l s2 e P IH S]; [split; [reflexivity|]; eauto|]. destruct IH as (-> & c' & Hc & K'). destruct (stuck_step _ _ _ _ _ _ _ _ K' S) as (-> & K''). split; [reflexivity|]. exists (c' || match l with PStop => true | _ => false end). split; [|exact K'']. intro E. rewrite (Hc E). reflexivity. }
  exists (sh_state r pend [] blocked 0), tr. split; [exact R|]. split.
  - intros s' tr' P. destruct (St false _ _ _ K P) as (-> & c & _ & [_ (u & q0 & q1 & _ & Ew & _)]). split; [reflexivity|]. intros w x Hw. rewrite Ew in Hw. destruct w as [|[|w]]; cbn [nth_error] in Hw; [discriminate|injection Hw as <-; discriminate|]. apply nth_blocked in Hw as (t & _ & ->). discriminate.
  - destruct (pstep sh_home (sh_state r pend [] blocked 0) PStop) as [| |s1 e] eqn:S; try discriminate. destruct (stuck_step _ _ _ _ _ _ _ _ K S) as (-> & K1). exists s1. split; [exact S|]. intros s2 tr2 P [X1 X2]. destruct (St true _ _ _ K1 P) as (_ & c & Hc & [_ (u & q0 & q1 & Eq & Ew & U)]). rewrite (Hc eq_refl) in U. rewrite Ew in X1. rewrite Eq in X2. cbn in X1, X2. injection X1 as ->. injection X2 as ->.
    destruct U as [?|(_ & [[? _]|(t & ?)])]; discriminate.
Qed.

(** *** Examples *)
(** Two members with a pool each; member 0 gets packets for chunks 0 and 1, so that it has to wait for member 1, which has no data. *)
Definition pex_home : list nat := [1; 2]%nat.
Definition pex_alloc (id : Z) : option Z := Some (100 + id).
Definition pex_start : pstate := pool_new true 1 [1; 1]%nat 3 [0; 1; 2]%nat.
Definition pex_go (w n : nat) : list plabel := repeat (PGo w pex_alloc) n.
Definition pex_labels : list plabel :=
  PArrive 0 [0; 1] false :: PTake 1 :: PLock 1 :: pex_go 1 8 ++ PTake 2 :: PLock 2 :: pex_go 2 2 ++ pex_go 1 3 ++ pex_go 2 1 ++ PTake 1 :: PLock 1 :: pex_go 1 2.
Definition pex_stop : list plabel := PTake 0 :: PLock 0 :: pex_go 0 3 ++ PTake 0 :: PLock 0 :: pex_go 0 2 ++ PTake 0 :: PLock 0 :: pex_go 0 3 ++ PTake 0 :: PLock 0 :: pex_go 0 2.
Definition pex_end (s : pstate) (ls : list plabel) : pstate := match prun pex_home s ls with Some (s', _) => s' | None => s end.
Example pool_ex_ok : group_ok 1 [1; 1]%nat /\ pools_ok [1; 1]%nat pex_home 3 [0; 1; 2]%nat /\ NoDup pex_home.
Proof.
  split; [split; [lia|split; [repeat constructor|discriminate]]|]. split; [|repeat constructor; cbn; intuition discriminate].
  split; [reflexivity|]. split; [repeat constructor|]. split; [lia|]. split; [cbn; auto|]. apply Forall_forall. cbn. intuition.
Qed.
(** it waits ... *)
Example pool_ex_waits : map mb_pc (g_members (pg (pex_end pex_start (firstn 11 pex_labels)))) = [PWait 1 1 false; PIdle] /\ queues (pex_end pex_start (firstn 11 pex_labels)) = [[]; [TFlush 0 1]; [TFlush 1 1]].
Proof. vm_compute. auto. Qed.
(** ... and comes to rest *)
Example pool_ex_rest : exists s, prun pex_home pex_start pex_labels = Some (s, [GChunk (EAlloc 0 (Some 100)); GChunk (EReady 100); GChunk (EHead 1); GChunk (EAlloc 1 (Some 101))]) /\ quiet pex_home s /\ at_rest s.
Proof.
  eexists. split; [vm_compute; reflexivity|]. split.
  - intros l Hl. destruct l as [i ids fin|w|w|w alloc| |i]; try discriminate; destruct w as [|[|[|w]]]; try reflexivity; cbn; destruct w; reflexivity.
  - split; [|split]; cbn; intros x H; repeat (destruct H as [<-|H]); try contradiction; auto.
Qed.
Example pool_ex_stop : exists s1 s2 s, prun pex_home pex_start pex_labels = Some (s1, [GChunk (EAlloc 0 (Some 100)); GChunk (EReady 100); GChunk (EHead 1); GChunk (EAlloc 1 (Some 101))]) /\
  pstep pex_home s1 PStop = POk s2 [] /\ prun pex_home s2 pex_stop = Some (s, [GChunk (EReady 101); GChunk (EHead u64_max)]) /\ quiet pex_home s.
Proof.
  do 3 eexists. split; [vm_compute; reflexivity|]. split; [vm_compute; reflexivity|]. split; [vm_compute; reflexivity|].
  intros l Hl. destruct l as [i ids fin|w|w|w alloc| |i]; try discriminate; destruct w as [|[|[|w]]]; try reflexivity; cbn; destruct w; reflexivity.
Qed.
(** The shared pool with two threads: the state C63_shared_refuted is about *)
Example pool_ex_shared : exists s, prun [1; 1]%nat (pool_new true 1 [1; 1]%nat 2 [0; 1; 1]%nat) (PArrive 0 [0; 1] false :: PTake 1 :: PLock 1 :: pex_go 1 8 ++ [PTake 2]) = Some (s, [GChunk (EAlloc 0 (Some 100))]) /\
  queues s = [[]; [TFlush 1 1]] /\ workers s = [(0, WIdle); (1, WRun (THandle 0 [] false)); (1, WLock (TFlush 0 1))]%nat.
Proof. eexists. split; [vm_compute; reflexivity|]. auto. Qed.

Print Assumptions C63_safe.
Print Assumptions C63_no_deadlock_partial.
Print Assumptions C63_stop_partial.
Print Assumptions C63_terminates.
Print Assumptions C63_shared_refuted.
