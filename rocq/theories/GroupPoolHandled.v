(** C63: everything that was received is dealt with. *)
From Coq Require Import ZArith List Bool Lia Arith.
From Verif Require Import Base ConcBase ChunkModel ChunkSpec ChunkProofs GroupModel GroupProofs GroupProps GroupPoolModel GroupPoolProofs GroupPoolProps.
Import ListNotations.
Open Scope Z_scope.

(** The chunk that a member is getting *)
Definition getting (p : gpc) : option Z := match p with PLoop id | PReport _ (KLoop id) | PReport _ (KAlloc id) | PAlloc id | PWait id _ _ => Some id | _ => None end.
Definition cov (id : Z) (m : member) : Prop := id < w_tail (mb_win m) \/ getting (mb_pc m) = Some id.

Lemma report_getting e k p : report_then e k = Some p -> getting p = getting (of_kont k).
Proof. unfold report_then. destruct (reported e) as [|h [|]]; [| |discriminate]; injection 1 as <-; [reflexivity|]. now destruct k. Qed.
Lemma take_chunk_cov g i m id alloc g' e j mj x : nth_error (g_members g) i = Some m -> getting (mb_pc m) = Some id -> 0 <= w_tail (mb_win m) <= id -> id < 2 ^ 63 -> take_chunk g i m id alloc = Ok g' e -> nth_error (g_members g) j = Some mj -> cov x mj ->
  exists m', nth_error (g_members g') j = Some m' /\ cov x m'.
Proof.
  intros Hm Gm Lm Li S Hj Cx. unfold take_chunk in S. destruct (get_chunk _ _ _) as [[[w' y] o]|]; [|discriminate]. destruct (existsb is_ready y); [discriminate|]. destruct (gc_store (mb_win m) o) as [mw|] eqn:Es; [|discriminate]. injection S as <- <-.
  cbn [g_members]. rewrite nth_upd. destruct (Nat.eqb_spec j i) as [->|N]; [|eauto]. assert (i < length (g_members g))%nat by (apply nth_error_Some; congruence). destruct (Nat.ltb_spec i (length (g_members g))); [|lia].
  eexists. split; [reflexivity|]. unfold gc_store in Es. destruct (Nat.ltb _ _); [|discriminate]. injection Es as <-. replace mj with m in Cx by congruence. unfold cov in *. cbn [set_win mb_win mb_pc w_tail getting]. rewrite u64_small by lia. rewrite Gm in Cx. destruct Cx as [Cx|Cx]; [left; lia|now right].
Qed.
Lemma cov_keep lossy gmax maxs g mon gl l g' e j m x : ginv lossy gmax maxs g mon gl -> g_step g l = Ok g' e -> nth_error (g_members g) j = Some m -> cov x m \/ l = LGet j x ->
  exists m', nth_error (g_members g') j = Some m' /\ cov x m'.
Proof.
  intros G S Hj Cx.
  assert (U : forall i mi m', nth_error (g_members g) i = Some mi -> (j = i -> cov x mi \/ l = LGet i x -> cov x m') -> (l = LGet j x -> j = i) -> exists y, nth_error (upd (g_members g) i m') j = Some y /\ cov x y).
  { intros i mi m' Hi Im Lj. rewrite nth_upd. destruct (Nat.eqb_spec j i) as [->|N]; [|exists m; split; [exact Hj|tauto]]. assert (i < length (g_members g))%nat by (apply nth_error_Some; congruence). destruct (Nat.ltb_spec i (length (g_members g))); [|lia]. exists m'. split; [reflexivity|]. apply Im; [reflexivity|]. replace mi with m by congruence. exact Cx. }
  assert (WC : forall y, cov x y -> cov x (wake y)) by (intros y; unfold wake, cov; destruct (mb_pc y) eqn:E; cbn [set_pc mb_win mb_pc getting]; rewrite ?E; auto).
  destruct l as [i id|i alloc|i jj|i| |i|i id]; cbn [g_step] in S; try (destruct (nth_error (g_members g) i) as [mi|] eqn:Hm; [|discriminate];
    destruct (member_data _ _ _ _ _ _ _ _ G Hm) as (mmax & hd & X1 & X2 & X3 & X4 & Mo); destruct (mo_win _ _ _ _ _ _ _ _ Mo) as (live & R & _); pose proof (rp_range _ _ _ R) as (R1 & R2 & R3); pose proof (zlen_nonneg live) as Zl; pose proof (mo_pc _ _ _ _ _ _ _ _ Mo) as Mp).
  - destruct (mb_pc mi) eqn:Hpc; try discriminate. destruct (Z.leb_spec 0 id); [|discriminate]. destruct (Z.ltb_spec id (2 ^ 63)); [|discriminate]. cbn [andb] in S.
    destruct (Z.leb_spec (w_head (mb_win mi)) id).
    + destruct (gc_jump_rep mmax (mb_win mi) live id R ltac:(lia)) as (w' & live' & y & E & R' & B1 & B2 & B3 & _). rewrite E in S. destruct (report_then _ _) as [p|] eqn:Er; [|discriminate]. injection S as <- <-. apply report_getting in Er. cbn in Er.
      cbn [set_member g_members]. eapply U; [exact Hm| |congruence]. intros _ C. unfold cov in *. cbn [set_win mb_win mb_pc]. rewrite Er. rewrite Hpc in C. destruct C as [[C|C]|C]; [left; lia|discriminate|right; congruence].
    + injection S as <- <-. exists m. split; [exact Hj|]. destruct Cx as [Cx|Cx]; [exact Cx|]. injection Cx as -> ->. left. replace m with mi by congruence. lia.
  - destruct Cx as [Cx|Cx]; [|discriminate]. assert (NL : LStep i alloc = LGet j x -> j = i) by discriminate. unfold member_step in S. destruct (mb_pc mi) as [|id|h k|id|id t [|]] eqn:Hpc; try discriminate.
    + destruct (Z.leb_spec (w_tail (mb_win mi)) id).
      * destruct (gc_room_rep mmax (mb_win mi) live R) as (w' & live' & y & E & R' & B1 & B2 & _). rewrite E in S. destruct (report_then _ _) as [p|] eqn:Er; [|discriminate]. injection S as <- <-. apply report_getting in Er. cbn in Er.
        cbn [set_member g_members]. eapply U; [exact Hm| |exact NL]. intros _ [C|C]; [|discriminate]. unfold cov in *. cbn [set_win mb_win mb_pc]. rewrite Er, B2. rewrite Hpc in C. exact C.
      * destruct (nth_error (w_slots _) _); [|discriminate]. injection S as <- <-. cbn [set_member g_members]. eapply U; [exact Hm| |exact NL]. intros _ [C|C]; [|discriminate]. unfold cov in *. cbn [set_pc mb_win mb_pc getting]. rewrite Hpc in C. destruct C as [C|C]; [now left|]. injection C as <-. now left.
    + assert (Gk : getting (PReport h k) = getting (of_kont k)) by now destruct k. unfold stream_head_updated in S. destruct (nth_error (g_heads g) i) as [old|]; [|discriminate]. destruct (old <? h); [|discriminate].
      assert (Own : forall y, (y = mi \/ y = wake mi) -> cov x mi -> cov x (set_pc y (of_kont k))).
      { intros y Hy C. unfold cov in *. cbn [set_pc mb_win mb_pc]. rewrite Hpc, Gk in C. destruct Hy as [->| ->]; [exact C|]. unfold wake. rewrite Hpc. exact C. }
      destruct (w_head (g_win g) =? old).
      * destruct (flush_until _ _) as [[w' y]|]; [|discriminate]. cbn [g_members] in S. destruct (reported y) as [|r rs].
        -- rewrite Hm in S. injection S as <- <-. cbn [set_member g_members]. eapply U; [exact Hm| |exact NL]. intros _ [C|C]; [|discriminate]. apply Own; auto.
        -- rewrite nth_error_map, Hm in S. cbn [option_map] in S. injection S as <- <-. cbn [set_member g_members]. rewrite nth_upd, map_length, nth_error_map, Hj. cbn [option_map]. destruct (Nat.eqb_spec j i) as [->|N].
           ++ assert (i < length (g_members g))%nat by (apply nth_error_Some; congruence). destruct (Nat.ltb_spec i (length (g_members g))); [|lia]. eexists. split; [reflexivity|]. apply Own; auto. replace mi with m by congruence. exact Cx.
           ++ eexists. split; [reflexivity|]. now apply WC.
      * cbn [g_members] in S. rewrite Hm in S. injection S as <- <-. cbn [set_member g_members]. eapply U; [exact Hm| |exact NL]. intros _ [C|C]; [|discriminate]. apply Own; auto.
    + destruct Mp as [Mp1 Mp2]. unfold group_get in S. destruct (_ <=? w_tail (mb_win mi)); [|discriminate].
      destruct (_ <=? u64 (w_tail (mb_win mi) - _)); [|eapply (take_chunk_cov g i mi id); [exact Hm|rewrite Hpc; reflexivity|lia|lia|exact S|exact Hj|exact Cx]].
      set (target := u64 (w_tail (mb_win mi) - (Z.of_nat (w_max (g_win g)) - 1))) in *. set (ps := g_lossy g && (g_last g <? target)) in *.
      set (ms := if ps then map (post target) (g_members g) else g_members g) in *. set (m' := if ps then post target mi else mi) in *.
      match type of S with (if _ then Ok (set_member ?gg _ _) _ else _) = _ => set (g1 := gg) in * end.
      assert (Hi : nth_error (g_members g1) i = Some m') by (cbn [g1 g_members]; unfold ms, m'; destruct ps; [now rewrite nth_error_map, Hm|exact Hm]).
      assert (Em : mb_win m' = mb_win mi /\ mb_pc m' = mb_pc mi) by (unfold m'; destruct ps; auto).
      assert (Hj1 : exists m1, nth_error (g_members g1) j = Some m1 /\ cov x m1).
      { cbn [g1 g_members]. unfold ms. destruct ps; [|eauto]. rewrite nth_error_map, Hj. eexists. split; [reflexivity|exact Cx]. }
      destruct Hj1 as (m1 & Hj1 & C1). destruct Em as [Em1 Em2]. destruct (w_head (g_win g) <? target).
      * injection S as <- <-. cbn [set_member g_members]. rewrite nth_upd. destruct (Nat.eqb_spec j i) as [->|N]; [|exists m1; split; [exact Hj1|exact C1]].
        assert (L : (i < length (g_members g1))%nat) by (apply nth_error_Some; congruence). cbn [g1 g_members] in L. cbn [g1 g_members]. destruct (Nat.ltb_spec i (length ms)); [|lia]. eexists. split; [reflexivity|].
        replace m1 with m' in C1 by congruence. unfold cov in *. rewrite Em2, Hpc in C1. exact C1.
      * eapply (take_chunk_cov g1 i m' id); [exact Hi|rewrite Em2, Hpc; reflexivity|rewrite Em1; lia|lia|exact S|exact Hj1|exact C1].
    + destruct Mp as [[Mp1 Mp2] _]. destruct (_ <? t); [|eapply (take_chunk_cov g i mi id); [exact Hm|rewrite Hpc; reflexivity|lia|lia|exact S|exact Hj|exact Cx]].
      injection S as <- <-. cbn [set_member g_members]. eapply U; [exact Hm| |exact NL]. intros _ [C|C]; [|discriminate]. unfold cov in *. rewrite Hpc in C. exact C.
  - destruct Cx as [Cx|Cx]; [|discriminate]. destruct (mb_pc mi) eqn:Hpc; try discriminate. destruct (nth_error (mb_pending mi) jj) as [t|] eqn:Ht0; [|discriminate].
    destruct (flush_until (mb_win mi) t) as [[w' y]|] eqn:E; [|discriminate]. destruct (report_then _ _) as [p|] eqn:Er; [|discriminate]. injection S as <- <-. cbn [set_member g_members]. eapply U; [exact Hm| |discriminate].
    intros _ [C|C]; [|discriminate]. unfold cov in *. rewrite Hpc in C. destruct C as [C|C]; [|discriminate]. left. cbn [mb_win].
    assert (Ht : 0 <= t < 2 ^ 64) by (pose proof (mo_pending _ _ _ _ _ _ _ _ Mo) as P; rewrite Forall_forall in P; apply P; eapply nth_error_In; eauto).
    destruct (Z.ltb_spec (w_head (mb_win mi)) t) as [L|L].
    + destruct (flush_until_rep mmax (mb_win mi) live t R Ht L) as (k & w2 & live' & F2 & R' & Hh & _ & _ & _ & Cs). rewrite F2 in E. injection E as <- <-. destruct Cs as [(_ & ->)|(? & _ & ->)]; lia.
    + unfold flush_until in E. destruct (Z.ltb_spec (w_head (mb_win mi)) t); [lia|]. injection E as <- <-. lia.
  - destruct Cx as [Cx|Cx]; [|discriminate]. destruct (mb_pc mi) eqn:Hpc; try discriminate.
    destruct (flush_all_rep mmax (mb_win mi) live u64_max R ltac:(unfold u64_max; lia)) as (w' & E & R' & Hh & Ht). rewrite E in S.
    destruct (report_then _ _); [|discriminate]. injection S as <- <-. cbn [set_member g_members]. eapply U; [exact Hm| |discriminate]. intros _ [C|C]; [|discriminate]. unfold cov in *. rewrite Hpc in C. destruct C as [C|C]; [|discriminate]. left. cbn [set_win mb_win]. rewrite Ht. unfold u64_max. lia.
  - destruct Cx as [Cx|Cx]; [|discriminate]. injection S as <- <-. cbn [g_members]. rewrite nth_error_map, Hj. eexists. split; [reflexivity|]. exact Cx.
  - injection S as <- <-. cbn [set_member g_members]. eapply U; [exact Hm| |discriminate]. intros _ [C|C]; [|discriminate]. now apply WC.
  - destruct Cx as [Cx|Cx]; [|discriminate]. destruct (mb_pc mi); try discriminate. destruct (get_const _ _) as [[c|]|]; try discriminate. destruct (_ && _); [|discriminate]. injection S as <- <-. eauto.
Qed.

(** Somebody still has the packet, or its chunk was dealt with. *)
Definition has (i : nat) (x : Z) (k : task) : Prop := match k with THandle j ids _ => j = i /\ In x ids | _ => False end.
Definition todo_or_done (i : nat) (x : Z) (s : pstate) : Prop :=
  (exists p q k, nth_error (queues s) p = Some q /\ In k q /\ has i x k) \/
  (exists w p k, (nth_error (workers s) w = Some (p, WLock k) \/ nth_error (workers s) w = Some (p, WRun k)) /\ has i x k) \/
  (exists m, nth_error (g_members (pg s)) i = Some m /\ cov x m).
Lemma nth_upd_same {A} (l : list A) i (x y : A) : nth_error l i = Some x -> nth_error (upd l i y) i = Some y.
Proof. intro H. rewrite nth_upd, Nat.eqb_refl. assert (i < length l)%nat by (apply nth_error_Some; congruence). destruct (Nat.ltb_spec i (length l)); [reflexivity|lia]. Qed.
Lemma nth_upd_other {A} (l : list A) i j (y : A) : j <> i -> nth_error (upd l i y) j = nth_error l j.
Proof. intro H. rewrite nth_upd. destruct (Nat.eqb_spec j i); [contradiction|reflexivity]. Qed.
Lemma enqueue_keep p k q p' q' x : nth_error q p' = Some q' -> In x q' -> exists q'', nth_error (enqueue p k q) p' = Some q'' /\ In x q''.
Proof.
  intros H I. unfold enqueue. destruct (Nat.eq_dec p' p) as [->|N]; [|rewrite nth_upd_other by exact N; eauto]. rewrite (nth_upd_same _ _ _ _ H). rewrite (nth_error_nth _ _ [] H). eexists. split; [reflexivity|]. apply in_or_app. now left.
Qed.
Lemma post_all_keep t : forall home i q p' q' x, nth_error q p' = Some q' -> In x q' -> exists q'', nth_error (post_all i home t q) p' = Some q'' /\ In x q''.
Proof. induction home as [|p home IH]; intros i q p' q' x H I; cbn [post_all]; [eauto|]. destruct (enqueue_keep p (TFlush i t) q p' q' x H I) as (q2 & H2 & I2). eapply IH; eauto. Qed.

Lemma todo_step lossy gmax maxs home nq pools s tr l s' e i x : group_ok gmax maxs -> pools_ok maxs home nq pools -> preach home (pool_new lossy gmax maxs nq pools) s tr -> pstep home s l = POk s' e ->
  todo_or_done i x s \/ (exists ids fin, l = PArrive i ids fin /\ In x ids) -> todo_or_done i x s'.
Proof.
  intros Gok Pok R S T. pose proof Gok as (H1 & H2 & H3). pose proof Pok as (P1 & P2 & P3 & _). destruct (reach_inv _ _ _ _ _ _ Pok _ _ R) as (V & G & _). destruct (ginv_reach lossy gmax maxs _ _ H1 H2 H3 G) as (mon & gl & _ & GI).
  destruct l as [j ids fin|w|w|w alloc| |j]; cbn [pstep] in S.
  - destruct (nth_error home j) as [p|] eqn:Hp; [|discriminate]. destruct (valid ids); [|discriminate]. injection S as <- <-. destruct T as [[(p' & q & k & A & B & C)|[T|T]]|(ids' & fin' & E & I)].
    + left. destruct (enqueue_keep p (THandle j ids fin) _ _ _ _ A B) as (q2 & A2 & B2). exists p', q2, k. auto.
    + right. left. exact T.
    + right. right. exact T.
    + injection E as -> <- <-. left. pose proof (home_lt home nq P2 i p Hp) as Lp. destruct (nth_error (queues s) p) as [q|] eqn:Q; [|apply nth_error_None in Q; rewrite (v_nq _ _ _ V) in Q; lia].
      exists p, (q ++ [THandle i ids fin]), (THandle i ids fin). unfold enqueue. cbn [queues]. rewrite (nth_upd_same _ _ _ _ Q), (nth_error_nth _ _ [] Q). split; [reflexivity|]. split; [apply in_or_app; right; now left|]. cbn. auto.
  - destruct T as [T|(? & ? & ? & _)]; [|discriminate]. destruct (nth_error (workers s) w) as [[p [|k|k]]|] eqn:Hw; try discriminate. destruct (nth_error (queues s) p) as [[|k q]|] eqn:Hq; try discriminate. injection S as <- <-. destruct T as [(p' & q' & k' & A & B & C)|[(w' & p' & k' & A & C)|T]].
    + destruct (Nat.eq_dec p' p) as [->|N].
      * rewrite Hq in A. injection A as <-. destruct B as [->|B].
        -- right. left. exists w, p, k'. cbn [workers]. rewrite (nth_upd_same _ _ _ _ Hw). auto.
        -- left. exists p, q, k'. cbn [queues]. rewrite (nth_upd_same _ _ _ _ Hq). auto.
      * left. exists p', q', k'. cbn [queues]. rewrite nth_upd_other by exact N. auto.
    + right. left. exists w', p', k'. cbn [workers]. destruct (Nat.eq_dec w' w) as [->|N]; [rewrite Hw in A; destruct A; discriminate|]. rewrite nth_upd_other by exact N. auto.
    + right. right. exact T.
  - destruct T as [T|(? & ? & ? & _)]; [|discriminate]. destruct (nth_error (workers s) w) as [[p [|k|k]]|] eqn:Hw; try discriminate. destruct (existsb _ _); [discriminate|]. injection S as <- <-. unfold todo_or_done, set_worker. cbn [queues workers pg]. destruct T as [T|[(w' & p' & k' & A & C)|T]]; [now left| |now right; right].
    right. left. exists w', p', k'. destruct (Nat.eq_dec w' w) as [->|N]; [|rewrite nth_upd_other by exact N; auto]. rewrite Hw in A. rewrite (nth_upd_same _ _ _ _ Hw). destruct A as [A|A]; [injection A as <- <-; auto|discriminate].
  - destruct T as [T|(? & ? & ? & _)]; [|discriminate]. destruct (nth_error (workers s) w) as [[p [|k|k]]|] eqn:Hw; try discriminate. unfold go in S. destruct (nth_error (g_members (pg s)) (who k)) as [m|] eqn:Hm; [|discriminate].
    assert (D : forall k' l0, g_do home s w p k' l0 = POk s' e -> (has i x k -> has i x k' \/ l0 = LGet i x) -> todo_or_done i x s').
    { intros k' l0 Gd Hk. unfold g_do in Gd. destruct (g_step (pg s) l0) as [| |g' e'] eqn:St; try discriminate. injection Gd as <- <-. unfold todo_or_done. cbn [pg queues workers]. destruct T as [(p' & q' & k2 & A & B & C)|[(w' & p' & k2 & A & C)|(m2 & A & C)]].
      - left. destruct (_ =? _); [eauto 6|]. destruct (post_all_keep (g_last g') home 0 _ _ _ _ A B) as (q2 & A2 & B2). exists p', q2, k2. auto.
      - destruct (Nat.eq_dec w' w) as [->|N].
        + rewrite Hw in A. destruct A as [A|A]; [discriminate|]. injection A as <- <-. destruct (Hk C) as [C'| ->].
          * right. left. exists w, p, k'. rewrite (nth_upd_same _ _ _ _ Hw). auto.
          * right. right. destruct k as [j' ids' fin'|]; [|destruct C]. destruct C as [-> _]. cbn [who] in Hm. exact (cov_keep _ _ _ _ _ _ _ _ _ _ _ _ GI St Hm (or_intror eq_refl)).
        + right. left. exists w', p', k2. rewrite nth_upd_other by exact N. auto.
      - right. right. exact (cov_keep _ _ _ _ _ _ _ _ _ _ _ _ GI St A (or_introl C)). }
    destruct k as [j ids fin|j t]; [|eapply D; [exact S|]; intros []].
    destruct (mb_pc m); try (eapply D; [exact S|]; auto; fail). destruct ids as [|id r]; [destruct fin|].
    + eapply D; [exact S|]. intros [_ []].
    + injection S as <- <-. unfold todo_or_done, set_worker. cbn [queues workers pg]. destruct T as [T|[(w' & p' & k' & A & C)|T]]; [now left| |now right; right]. right. left. exists w', p', k'. destruct (Nat.eq_dec w' w) as [->|N]; [|rewrite nth_upd_other by exact N; auto]. rewrite Hw in A. destruct A as [A|A]; [discriminate|]. injection A as <- <-. destruct C as [_ []].
    + eapply D; [exact S|]. intros [-> [->|I]]; [now right|left]. cbn. auto.
  - destruct T as [T|(? & ? & ? & _)]; [|discriminate].
    assert (Q0 : forall p' q' k', nth_error (queues s) p' = Some q' -> In k' q' -> exists q2, nth_error (upd (queues s) 0 (nth 0 (queues s) [] ++ stops (length (g_members (pg s))))) p' = Some q2 /\ In k' q2).
    { intros p' q' k' A B. destruct (Nat.eq_dec p' 0) as [->|N]; [|rewrite nth_upd_other by exact N; eauto]. rewrite (nth_upd_same _ _ _ _ A), (nth_error_nth _ _ [] A). eexists. split; [reflexivity|]. apply in_or_app. now left. }
    destruct (g_lossy (pg s)).
    + injection S as <- <-. destruct T as [(p' & q' & k' & A & B & C)|[T|T]]; [|now right; left|now right; right]. left. destruct (Q0 _ _ _ A B) as (q2 & A2 & B2). exists p', q2, k'. auto.
    + destruct (g_step (pg s) LPostStop) as [| |g' e'] eqn:St; try discriminate. injection S as <- <-. destruct T as [(p' & q' & k' & A & B & C)|[T|(m & A & C)]]; [|now right; left|].
      * left. destruct (Q0 _ _ _ A B) as (q2 & A2 & B2). destruct (post_all_keep u64_max home 0 _ _ _ _ A2 B2) as (q3 & A3 & B3). exists p', q3, k'. auto.
      * right. right. exact (cov_keep _ _ _ _ _ _ _ _ _ _ _ _ GI St A (or_introl C)).
  - destruct T as [T|(? & ? & ? & _)]; [|discriminate]. destruct (g_step (pg s) (LSpurious j)) as [| |g' e'] eqn:St; try discriminate. injection S as <- <-. destruct T as [T|[T|(m & A & C)]]; [now left|now right; left|]. right. right. exact (cov_keep _ _ _ _ _ _ _ _ _ _ _ _ GI St A (or_introl C)).
Qed.

(** When all is at rest, every packet that arrived was dealt with: the member's window got
    past its chunk (which was allocated, or was too old).  With C63_no_deadlock_partial and
    C63_terminates this is always reached in lossy mode. *)
Theorem C63_handled : forall lossy gmax maxs home nq pools ls s e, group_ok gmax maxs -> pools_ok maxs home nq pools -> prun home (pool_new lossy gmax maxs nq pools) ls = Some (s, e) -> at_rest s ->
  forall i ids fin x, In (PArrive i ids fin) ls -> In x ids -> exists m, nth_error (g_members (pg s)) i = Some m /\ x < w_tail (mb_win m).
Proof.
  intros lossy gmax maxs home nq pools ls s e Gok Pok Hr (A1 & A2 & A3) i ids fin x Il Ix.
  assert (T : todo_or_done i x s).
  { revert Hr Il. assert (R : preach home (pool_new lossy gmax maxs nq pools) (pool_new lossy gmax maxs nq pools) []) by constructor. revert R. generalize (pool_new lossy gmax maxs nq pools) at 2 3 as s1. generalize (@nil gev) as tr1. revert e.
    assert (Gen : forall ls e tr1 s1, preach home (pool_new lossy gmax maxs nq pools) s1 tr1 -> prun home s1 ls = Some (s, e) -> todo_or_done i x s1 \/ In (PArrive i ids fin) ls -> todo_or_done i x s).
    { induction ls0 as [|l ls0 IH]; intros e tr1 s1 R Hr T; cbn [prun] in Hr.
      - injection Hr as -> _. destruct T as [T|[]]. exact T.
      - destruct (pstep home s1 l) as [| |s2 e2] eqn:S; try discriminate. destruct (prun home s2 ls0) as [[s3 e3]|] eqn:Hr2; [|discriminate]. injection Hr as -> <-. eapply IH; [econstructor; eauto|exact Hr2|].
        destruct T as [T|[->|T]]; [left|left|right; exact T]; eapply todo_step; eauto. }
    intros e tr1 s1 R Hr Il. eapply Gen; eauto. }
  destruct T as [(p & q & k & A & B & C)|[(w & p & k & A & C)|(m & A & C)]].
  - apply nth_error_In in A. rewrite (A2 _ A) in B. destruct B.
  - exfalso. destruct A as [A|A]; apply nth_error_In in A; apply A1 in A; discriminate.
  - exists m. split; [exact A|]. destruct (A3 m (nth_error_In _ _ A)) as [P _]. destruct C as [C|C]; [exact C|]. rewrite P in C. discriminate.
Qed.
Print Assumptions C63_handled.

(** The run of GroupPoolProps.v: both packets of member 0 *)
Example pool_ex_handled : exists s e, prun pex_home pex_start pex_labels = Some (s, e) /\ at_rest s /\ In (PArrive 0 [0; 1] false) pex_labels /\ map (fun m => w_tail (mb_win m)) (g_members (pg s)) = [2; 1].
Proof. destruct pool_ex_rest as (s & E & _ & A). exists s. eexists. split; [exact E|]. split; [exact A|]. split; [now left|]. vm_compute in E. injection E as <-. reflexivity. Qed.
