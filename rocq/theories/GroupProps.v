(** C32, C33: chunk stream groups. *)
From Coq Require Import ZArith List Bool Sorted Lia.
From Verif Require Import Base ConcBase ChunkModel ChunkSpec ChunkProofs GroupModel GroupProofs.
Import ListNotations.
Open Scope Z_scope.

(** A group as the constructors allow it: at least one member, no member's window
    larger than the group's (recv_chunk_stream_group.cpp:236-239). *)
Definition group_ok (gmax : nat) (maxs : list nat) : Prop :=
  Z.of_nat gmax < 2 ^ 63 /\ Forall (fun x => (0 < x <= gmax)%nat) maxs /\ maxs <> [].

(** *** C32 *)
(** No assert fails, no slot outside a window is accessed and the eviction path
    marked unreachable (:199) is never taken; in any reachable state, whatever
    comes next. *)
Theorem C32_safe : forall lossy gmax maxs g tr l, group_ok gmax maxs -> g_reach (group_new lossy gmax maxs) g tr -> g_step g l <> Fault.
Proof.
  intros lossy gmax maxs g tr l (H1 & H2 & H3) R F. destruct (ginv_reach lossy gmax maxs g tr H1 H2 H3 R) as (mon & gl & M & G).
  pose proof (g_step_ok _ _ _ _ _ _ l G) as K. now rewrite F in K.
Qed.
Print Assumptions C32_safe.

(** Seen from the user's callbacks and the memory, the group behaves as one
    window of [gmax] chunks; and members only touch chunks the group still
    holds. *)
Theorem C32_window : forall lossy gmax maxs g tr, group_ok gmax maxs -> g_reach (group_new lossy gmax maxs) g tr ->
  exists m, cmon_run (Z.of_nat gmax) cmon0 (chunk_events tr) = Some m /\ cm_head m = w_head (g_win g).
Proof.
  intros lossy gmax maxs g tr (H1 & H2 & H3) R. destruct (ginv_reach lossy gmax maxs g tr H1 H2 H3 R) as (mon & gl & M & G).
  exists mon. split; [exact M|]. exact (proj2 (gi_win _ _ _ _ _ _ G)).
Qed.
Print Assumptions C32_window.

(** The group's head never passes a member's head, and whenever no member has a
    report due it is the least of them. *)
Definition reporting (m : member) : Prop := exists h k, mb_pc m = PReport h k.
Theorem C32_min : forall lossy gmax maxs g tr, group_ok gmax maxs -> g_reach (group_new lossy gmax maxs) g tr ->
  (forall m, In m (g_members g) -> w_head (g_win g) <= w_head (mb_win m)) /\
  ((forall m, In m (g_members g) -> ~ reporting m) -> w_head (g_win g) = min_list (map (fun m => w_head (mb_win m)) (g_members g))).
Proof.
  intros lossy gmax maxs g tr (H1 & H2 & H3) R. destruct (ginv_reach lossy gmax maxs g tr H1 H2 H3 R) as (mon & gl & M & G).
  assert (A : forall m, In m (g_members g) -> w_head (g_win g) <= w_head (mb_win m)).
  { intros m Hm. apply In_nth_error in Hm as [i Hi]. destruct (member_data _ _ _ _ _ _ _ _ G Hi) as (mx & hd & X1 & X2 & X3 & X4 & Mo).
    pose proof (mo_hd_le _ _ _ _ _ _ _ _ Mo). lia. }
  split; [exact A|]. intro Hr. symmetry. apply min_list_unique.
  - destruct (gi_min _ _ _ _ _ _ G) as [Hi _]. apply In_nth_error in Hi as [i Hi]. destruct (gi_len _ _ _ _ _ _ G) as [L1 L2].
    assert (i < length (g_heads g))%nat by (apply nth_error_Some; congruence).
    destruct (nth_error (g_members g) i) as [m|] eqn:Em; [|apply nth_error_None in Em; lia].
    destruct (member_data _ _ _ _ _ _ _ _ G Em) as (mx & hd & X1 & X2 & X3 & X4 & Mo). rewrite Hi in X2. injection X2 as <-.
    apply in_map_iff. exists m. split; [|eapply nth_error_In; eauto]. pose proof (mo_head _ _ _ _ _ _ _ _ Mo) as Hh.
    assert (~ reporting m) by (apply Hr; eapply nth_error_In; eauto). unfold reporting in *. destruct (mb_pc m); try congruence. exfalso. eauto.
  - apply Forall_forall. intros y Hy. apply in_map_iff in Hy as (m & <- & Hm). auto.
Qed.
Print Assumptions C32_min.

Lemma handover_pairs max : forall l m m', cmon_run max m l = Some m' ->
  exists gone, cm_out m ++ allocs l = gone ++ cm_out m' /\ map snd gone = readies l.
Proof.
  induction l as [|e l IH]; intros m m' H; cbn [cmon_run] in H.
  - injection H as <-. exists []. cbn [allocs readies map app]. now rewrite app_nil_r.
  - destruct (cmon_step max m e) as [m1|] eqn:E; [|discriminate]. apply IH in H as (gone & A & B).
    destruct e as [id o|c|h|id c off len|id c ix|id c]; cbn [cmon_step] in E; cbn [allocs readies].
    + destruct (_ && _) eqn:C; [|discriminate]. injection E as <-. cbn [cm_out] in A. exists gone. split; [|exact B].
      destruct o as [c|]; [|now rewrite app_nil_r in A]. rewrite <- app_assoc in A. exact A.
    + destruct (cm_out m) as [|[i c'] out]; [discriminate|]. destruct (Z.eqb_spec c c') as [<-|]; [|discriminate]. injection E as <-.
      cbn [cm_out] in A. exists ((i, c) :: gone). cbn [app map snd]. now rewrite A, B.
    + destruct (_ && _); [|discriminate]. injection E as <-. eauto.
    + destruct (is_out m id c); [|discriminate]. injection E as <-. eauto.
    + destruct (is_out m id c); [|discriminate]. injection E as <-. eauto.
    + destruct (is_out m id c); [|discriminate]. injection E as <-. eauto.
Qed.
Lemma readies_rlist l : forall h, readies (rlist l) = map snd (outs h l).
Proof.
  unfold rlist. induction l as [|o l IH]; intro h; [reflexivity|]. cbn [flat_map outs]. destruct o as [c|]; cbn [revs app readies map snd]; [f_equal|]; apply IH.
Qed.
Lemma readies_app l1 l2 : readies (l1 ++ l2) = readies l1 ++ readies l2.
Proof. induction l1 as [|e l1 IH]; [reflexivity|]. destruct e; cbn [app readies]; rewrite ?IH; reflexivity. Qed.
Lemma allocs_app l1 l2 : allocs (l1 ++ l2) = allocs l1 ++ allocs l2.
Proof. induction l1 as [|e l1 IH]; [reflexivity|]. destruct e as [id [c|]| | | | |]; cbn [app allocs]; rewrite ?IH; reflexivity. Qed.
Lemma allocs_rlist l : allocs (rlist l) = [].
Proof. unfold rlist. induction l as [|o l IH]; [reflexivity|]. cbn [flat_map]. destruct o; cbn [revs app allocs]; exact IH. Qed.
Lemma no_ready l : existsb is_ready l = false -> readies l = [].
Proof. induction l as [|e l IH]; [reflexivity|]. destruct e; cbn [existsb is_ready orb readies]; auto; discriminate. Qed.

Lemma app_eq_prefix {A} (a b c d : list A) : a ++ b = c ++ d -> length a = length c -> a = c /\ b = d.
Proof. revert c; induction a as [|x a IH]; intros [|y c] H L; cbn [app length] in *; try discriminate; [auto|]. injection H as -> H. injection L as L. destruct (IH c H L) as [-> ->]. auto. Qed.

Lemma flush_until_gone gmax zmax mon w live t w' e mon' : JB gmax mon w live -> 0 <= t < 2 ^ 64 -> flush_until w t = Some (w', e) -> cmon_run zmax mon e = Some mon' ->
  exists gone, cm_out mon ++ allocs e = gone ++ cm_out mon' /\ map snd gone = readies e /\ Forall (fun p => fst p < w_head w') gone.
Proof.
  intros [[R O N D] E] Ht F M. destruct (handover_pairs _ _ _ _ M) as (gone & A & B). exists gone. split; [exact A|]. split; [exact B|].
  destruct (Z.ltb_spec (w_head w) t) as [L|L].
  - destruct (flush_until_rep gmax w live t R Ht L) as (k & w2 & live' & F2 & R' & Hh & Hk & Hle & Hl & _). rewrite F2 in F. injection F as <- <-.
    rewrite allocs_app, allocs_rlist in A. cbn [allocs] in A. rewrite app_nil_r, O in A.
    rewrite <- (firstn_skipn k live), outs_app in A. rewrite readies_app in B. cbn [readies] in B. rewrite app_nil_r, (readies_rlist _ (w_head w)) in B.
    assert (X : length (outs (w_head w) (firstn k live)) = length gone) by (rewrite <- (map_length snd gone), B, map_length; reflexivity).
    destruct (app_eq_prefix _ _ _ _ A X) as [<- _]. apply Forall_forall. intros p Hp. apply outs_range in Hp. unfold zlen in Hp. rewrite firstn_length in Hp. lia.
  - unfold flush_until in F. destruct (Z.ltb_spec (w_head w) t); [lia|]. injection F as <- <-. destruct gone; [constructor|discriminate].
Qed.

Lemma chunk_events_app a b : chunk_events (a ++ b) = chunk_events a ++ chunk_events b.
Proof. unfold chunk_events. apply flat_map_app. Qed.

Lemma take_chunk_ready g i m id alloc g' e : take_chunk g i m id alloc = Ok g' e -> readies (chunk_events e) = [] .
Proof.
  unfold take_chunk. destruct (get_chunk _ _ _) as [[[w' x] o]|]; [|discriminate]. destruct (existsb is_ready x) eqn:E; [discriminate|].
  destruct (gc_store _ _); [|discriminate]. intros [= <- <-]. rewrite chunk_events_map. now apply no_ready.
Qed.

(** The only step that makes chunks ready. *)
Lemma step_ready_cases lossy gmax maxs g mon gl l g' e : ginv lossy gmax maxs g mon gl -> g_step g l = Ok g' e -> readies (chunk_events e) = [] \/
  exists t w' x, 0 <= t < 2 ^ 64 /\ flush_until (g_win g) t = Some (w', x) /\ chunk_events e = x /\ g_win g' = w'.
Proof.
  intros G S. destruct l as [i id|i alloc|i j|i| |i|i id]; cbn [g_step] in S; try (destruct (nth_error (g_members g) i) as [m|] eqn:Hm; [|discriminate]).
  - left. destruct (mb_pc m); try discriminate. destruct (_ && _); [|discriminate]. destruct (_ <=? _); [|injection S as <- <-; reflexivity].
    destruct (gc_jump _ _) as [[w' x]|]; [|discriminate]. destruct (report_then _ _); [|discriminate]. injection S as <- <-. reflexivity.
  - unfold member_step in S. destruct (mb_pc m) as [|id|h k|id|id t [|]] eqn:Hpc; try discriminate.
    + left. destruct (_ <=? _).
      * destruct (gc_room _) as [[w' x]|]; [|discriminate]. destruct (report_then _ _); [|discriminate]. injection S as <- <-. reflexivity.
      * destruct (nth_error (w_slots _) _); [|discriminate]. injection S as <- <-. reflexivity.
    + destruct (stream_head_updated g i h) as [[g1 e1]|] eqn:E; [|discriminate]. destruct (nth_error (g_members g1) i); [|discriminate]. injection S as <- <-.
      unfold stream_head_updated in E. destruct (nth_error (g_heads g) i) as [old|] eqn:Eo; [|discriminate]. destruct (old <? h) eqn:Elt; [|discriminate].
      destruct (w_head (g_win g) =? old); [|injection E as <- <-; left; reflexivity].
      destruct (flush_until (g_win g) (min_list (upd (g_heads g) i h))) as [[w' x]|] eqn:F; [|discriminate]. injection E as <- <-. right.
      exists (min_list (upd (g_heads g) i h)), w', x. rewrite chunk_events_map. split; [|auto].
      assert (Hx : Forall (fun y => 0 <= y < 2 ^ 64) (upd (g_heads g) i h)).
      { destruct (gi_len _ _ _ _ _ _ G) as [L1 L2].
        assert (Hb : forall j mj hj, nth_error (g_members g) j = Some mj -> nth_error (g_heads g) j = Some hj -> 0 <= hj < 2 ^ 64 /\ w_head (mb_win mj) < 2 ^ 64 /\ 0 <= w_head (mb_win mj)).
        { intros j mj hj Ej Hj. destruct (member_data _ _ _ _ _ _ _ _ G Ej) as (mxj & hj' & Y1 & Y2 & Y3 & Y4 & Mj). rewrite Hj in Y2. injection Y2 as <-.
          pose proof (mo_hd_le _ _ _ _ _ _ _ _ Mj). destruct (mo_win _ _ _ _ _ _ _ _ Mj) as (lj & Rj & _). pose proof (rp_range _ _ _ Rj) as (? & ? & ?). pose proof (zlen_nonneg lj).
          pose proof (rp_range _ _ _ (j_rep _ _ _ _ (proj1 (gi_win _ _ _ _ _ _ G)))) as (? & _). lia. }
        apply Forall_upd.
        - apply Forall_forall. intros y Hy. apply In_nth_error in Hy as [j Hj].
          assert (j < length (g_heads g))%nat by (apply nth_error_Some; congruence).
          destruct (nth_error (g_members g) j) as [mj|] eqn:Ej; [|apply nth_error_None in Ej; lia]. now destruct (Hb _ _ _ Ej Hj).
        - destruct (member_data _ _ _ _ _ _ _ _ G Hm) as (mxj & hj' & Y1 & Y2 & Y3 & Y4 & Mj). pose proof (mo_head _ _ _ _ _ _ _ _ Mj) as Q. rewrite Hpc in Q. destruct Q as [-> _].
          destruct (Hb _ _ _ Hm Eo). lia. }
      rewrite Forall_forall in Hx. apply Hx. apply min_list_in. intro X. assert (L : length (upd (g_heads g) i h) = O) by now rewrite X. rewrite upd_length in L.
      assert (i < length (g_heads g))%nat by (apply nth_error_Some; congruence). lia.
    + left. unfold group_get in S. destruct (_ <=? _); [|discriminate]. destruct (_ <=? _); [|eapply take_chunk_ready; eauto].
      destruct (_ <? u64 _); [injection S as <- <-; reflexivity|eapply take_chunk_ready; eauto].
    + left. destruct (_ <? _); [injection S as <- <-; reflexivity|eapply take_chunk_ready; eauto].
  - left. destruct (mb_pc m); try discriminate. destruct (nth_error (mb_pending m) j); [|discriminate]. destruct (flush_until _ _) as [[w' x]|]; [|discriminate].
    destruct (report_then _ _); [|discriminate]. injection S as <- <-. reflexivity.
  - left. destruct (mb_pc m); try discriminate. destruct (flush_all _ _) as [[w' x]|]; [|discriminate].
    destruct (report_then _ _); [|discriminate]. injection S as <- <-. reflexivity.
  - left. injection S as <- <-. reflexivity.
  - left. injection S as <- <-. reflexivity.
  - left. destruct (mb_pc m); try discriminate. destruct (get_const _ _) as [[c|]|]; try discriminate. destruct (_ && _); [|discriminate]. injection S as <- <-. reflexivity.
Qed.

Lemma g_step_head lossy gmax maxs g mon gl l g' e : ginv lossy gmax maxs g mon gl -> g_step g l = Ok g' e -> w_head (g_win g) <= w_head (g_win g').
Proof.
  intros G S. pose proof (g_step_ok _ _ _ _ _ _ l G) as K. rewrite S in K. destruct K as (mon' & gl' & M & G').
  pose proof (cmon_heads _ _ _ _ M) as (_ & Hf & Hl). rewrite <- (proj2 (gi_win _ _ _ _ _ _ G)), <- (proj2 (gi_win _ _ _ _ _ _ G')), Hl.
  destruct (heads (chunk_events e)) as [|a hs] eqn:E; [cbn [last]; lia|].
  assert (X : forall (x : Z) l d, In (last (x :: l) d) (x :: l)).
  { intros x l0. revert x. induction l0 as [|y l0 IH]; intros x d; [now left|]. right. exact (IH y d). }
  rewrite Forall_forall in Hf. specialize (Hf _ (X a hs (cm_head mon))). lia.
Qed.

(** Every chunk obtained from the allocator is either still held by the group or
    has been made ready, once and in the order of the ids; and then the window of
    every member has passed it. *)
Theorem C32_ready : forall lossy gmax maxs g tr, group_ok gmax maxs -> g_reach (group_new lossy gmax maxs) g tr ->
  exists gone kept, allocs (chunk_events tr) = gone ++ kept /\ readies (chunk_events tr) = map snd gone /\
    StronglySorted Z.lt (map fst (gone ++ kept)) /\
    (forall id c m, In (id, c) gone -> In m (g_members g) -> id < w_head (mb_win m)) /\
    (forall id c, In (id, c) kept -> w_head (g_win g) <= id).
Proof.
  intros lossy gmax maxs g tr (H1 & H2 & H3) R.
  assert (X : exists mon gl gone, cmon_run (Z.of_nat gmax) cmon0 (chunk_events tr) = Some mon /\ ginv lossy gmax maxs g mon gl /\
     allocs (chunk_events tr) = gone ++ cm_out mon /\ readies (chunk_events tr) = map snd gone /\ Forall (fun p => fst p < w_head (g_win g)) gone).
  { induction R as [|g tr l g' e R (mon & gl & gone & M & G & A & B & C) S].
    - exists cmon0, [], []. split; [reflexivity|]. split; [now apply ginv_new|]. repeat split; constructor.
    - pose proof (g_step_ok _ _ _ _ _ _ l G) as K. rewrite S in K. destruct K as (mon' & gl' & M' & G').
      assert (Q : exists more, cm_out mon ++ allocs (chunk_events e) = more ++ cm_out mon' /\ map snd more = readies (chunk_events e) /\ Forall (fun p => fst p < w_head (g_win g')) more).
      { destruct (step_ready_cases _ _ _ _ _ _ _ _ _ G S) as [E|(t & w' & x & Ht & F & E & W)].
        - destruct (handover_pairs _ _ _ _ M') as (more & Q1 & Q2). rewrite E in Q2. destruct more; [|discriminate]. exists []. rewrite E. auto.
        - rewrite E in *. destruct (flush_until_gone _ _ _ _ _ _ _ _ _ (gi_win _ _ _ _ _ _ G) Ht F M') as (more & Q1 & Q2 & Q3). exists more. rewrite W. auto. }
      destruct Q as (more & Q1 & Q2 & Q3). exists mon', gl', (gone ++ more). rewrite chunk_events_app, cmon_run_app, M. split; [exact M'|]. split; [exact G'|].
      rewrite allocs_app, readies_app, A, B, map_app, <- !app_assoc, Q1, Q2. split; [reflexivity|]. split; [reflexivity|].
      apply Forall_app. split; [|exact Q3]. pose proof (g_step_head _ _ _ _ _ _ _ _ _ G S). eapply Forall_impl; [|exact C]. cbn beta. intros; lia. }
  destruct X as (mon & gl & gone & M & G & A & B & C). exists gone, (cm_out mon). split; [exact A|]. split; [exact B|]. split; [|split].
  - rewrite <- A. pose proof (cmon_ids _ _ _ _ M) as [S _]. clear - S. induction (chunk_events tr) as [|e l IH]; [constructor|].
    destruct e as [id [c|]| | | | |]; cbn [allocs alloc_ids map fst] in *; auto; [|apply IH; now inversion S]. inversion S as [|? ? S1 S2]; subst. constructor; [auto|].
    clear - S2. induction l as [|e l IH]; [constructor|]. destruct e as [id' [c'|]| | | | |]; cbn [allocs alloc_ids map fst] in *; auto; inversion S2; subst; auto.
  - intros id c m Hg Hm. rewrite Forall_forall in C. specialize (C _ Hg). cbn [fst] in C. apply In_nth_error in Hm as [i Hi].
    destruct (member_data _ _ _ _ _ _ _ _ G Hi) as (mx & hd & X1 & X2 & X3 & X4 & Mo). pose proof (mo_hd_le _ _ _ _ _ _ _ _ Mo). lia.
  - intros id c Hk. rewrite (j_out _ _ _ _ (proj1 (gi_win _ _ _ _ _ _ G))) in Hk. apply outs_range in Hk. cbn [fst] in Hk. lia.
Qed.
Print Assumptions C32_ready.

(** *** C33 *)
(** What goes on by itself once packets stop arriving: calls in progress, and
    posted flushes. *)
Definition internal (l : glabel) : bool := match l with LStep _ _ | LFlush _ _ => true | _ => false end.
Definition spurious (l : glabel) : bool := match l with LSpurious _ => true | _ => false end.

(** Where members can be when nothing can go on. *)
Lemma blocked_pcs lossy gmax maxs g tr : group_ok gmax maxs -> g_reach (group_new lossy gmax maxs) g tr ->
  (forall l, internal l = true -> g_step g l = Blocked) ->
  forall i m, nth_error (g_members g) i = Some m -> (mb_pc m = PIdle /\ mb_pending m = []) \/ exists id t, mb_pc m = PWait id t false.
Proof.
  intros Ok0 R Q. intros i m Hi. destruct (mb_pc m) as [|id|h k|id|id t [|]] eqn:E; [left; split; [reflexivity|]| | | | |right; eauto].
    - destruct (mb_pending m) as [|t ts] eqn:Ep; [reflexivity|]. exfalso. pose proof (Q (LFlush i 0) eq_refl) as S. pose proof (C32_safe _ _ _ _ _ (LFlush i 0) Ok0 R) as NF.
      cbn [g_step] in S, NF. rewrite Hi, E, Ep in S, NF. cbn [nth_error] in S, NF. destruct (flush_until _ _) as [[w' x]|]; [|congruence]. destruct (report_then _ _); congruence.
    - exfalso. pose proof (Q (LStep i (fun _ => None)) eq_refl) as S. cbn [g_step] in S. rewrite Hi in S. unfold member_step in S. rewrite E in S.
      destruct (_ <=? id); [destruct (gc_room _) as [[w' x]|]; [destruct (report_then _ _)|]|destruct (nth_error (w_slots _) _)]; discriminate.
    - exfalso. pose proof (Q (LStep i (fun _ => None)) eq_refl) as S. cbn [g_step] in S. rewrite Hi in S. unfold member_step in S. rewrite E in S.
      destruct (stream_head_updated g i h) as [[g1 e1]|]; [destruct (nth_error (g_members g1) i)|]; discriminate.
    - exfalso. pose proof (Q (LStep i (fun _ => None)) eq_refl) as S. cbn [g_step] in S. rewrite Hi in S. unfold member_step in S. rewrite E in S.
      assert (T : forall g0 i0 m0 id0 al, take_chunk g0 i0 m0 id0 al <> Blocked).
      { intros. unfold take_chunk. destruct (get_chunk _ _ _) as [[[? ?] ?]|]; [|discriminate]. destruct (existsb _ _); [discriminate|]. destruct (gc_store _ _); discriminate. }
      unfold group_get in S. destruct (w_head (g_win g) <=? w_tail (mb_win m)); [|discriminate]. destruct (_ <=? u64 (w_tail (mb_win m) - _)); [|now apply T in S].
      destruct (w_head (g_win g) <? u64 _); [discriminate|now apply T in S].
    - exfalso. pose proof (Q (LStep i (fun _ => None)) eq_refl) as S. cbn [g_step] in S. rewrite Hi in S. unfold member_step in S. rewrite E in S.
      destruct (w_head (g_win g) <? t); [discriminate|]. unfold take_chunk in S. destruct (get_chunk _ _ _) as [[[? ?] ?]|]; [|discriminate].
      destruct (existsb _ _); [discriminate|]. destruct (gc_store _ _); discriminate.
Qed.

(** In lossy mode there is no deadlock: if nothing can go on, no member is inside
    a call, waiting or otherwise, and no flush is outstanding. *)
Theorem C33_no_deadlock : forall gmax maxs g tr, group_ok gmax maxs -> g_reach (group_new true gmax maxs) g tr ->
  (forall l, internal l = true -> g_step g l = Blocked) ->
  forall m, In m (g_members g) -> mb_pc m = PIdle /\ mb_pending m = [].
Proof.
  intros gmax maxs g tr Ok0 R Q. pose proof Ok0 as (H1 & H2 & H3). destruct (ginv_reach true gmax maxs g tr H1 H2 H3 R) as (mon & gl & M & G).
  pose proof (blocked_pcs _ _ _ _ _ Ok0 R Q) as Hpc.
  intros m Hm. apply In_nth_error in Hm as [i Hi]. destruct (Hpc i m Hi) as [D|(id & t & D)]; [exact D|exfalso].
  destruct (member_data _ _ _ _ _ _ _ _ G Hi) as (mmax & hd & X1 & X2 & X3 & X4 & Mo). pose proof (mo_sleep _ _ _ _ _ _ _ _ Mo _ _ D) as Hs.
  pose proof (mo_pc _ _ _ _ _ _ _ _ Mo) as P. rewrite D in P. destruct P as (_ & _ & _ & P). specialize (P eq_refl).
  destruct (gi_min _ _ _ _ _ _ G) as [Hj _]. apply In_nth_error in Hj as [j Hj]. destruct (gi_len _ _ _ _ _ _ G) as [L1 L2].
  assert (j < length (g_heads g))%nat by (apply nth_error_Some; congruence).
  destruct (nth_error (g_members g) j) as [mj|] eqn:Em; [|apply nth_error_None in Em; lia].
  destruct (member_data _ _ _ _ _ _ _ _ G Em) as (mxj & hj & Y1 & Y2 & Y3 & Y4 & Mj). rewrite Hj in Y2. injection Y2 as <-.
  pose proof (mo_head _ _ _ _ _ _ _ _ Mj) as Hh. destruct (Hpc j mj Em) as [[D1 D2]|(id' & t' & D')].
  - rewrite D1 in Hh. destruct (mo_lossy _ _ _ _ _ _ _ _ Mj eq_refl) as [B|(x & B & _)]; [lia|]. rewrite D2 in B. destruct B.
  - rewrite D' in Hh. pose proof (mo_sleep _ _ _ _ _ _ _ _ Mj _ _ D') as Hs'. pose proof (mo_pc _ _ _ _ _ _ _ _ Mj) as P'. rewrite D' in P'.
    destruct P' as ((_ & P1) & P2 & _). lia.
Qed.
Print Assumptions C33_no_deadlock.

(** How much there is left to do. *)
Definition mP (n : nat) : nat := n + 2.
Definition mW (n : nat) : nat := n * mP n + n + 10.
Definition todo (m : member) (id : Z) : nat := Z.to_nat (id + 1 - w_tail (mb_win m)).
Definition kw (n : nat) (m : member) (k : kont) : nat :=
  match k with KIdle => 0 | KLoop id => 1 + todo m id * mW n | KAlloc id => (todo m id - 1) * mW n + n * mP n + 4 end.
Definition pw (n : nat) (m : member) : nat :=
  match mb_pc m with
  | PIdle => 0
  | PLoop id => kw n m (KLoop id)
  | PReport _ k => n + 1 + kw n m k
  | PAlloc id => kw n m (KAlloc id)
  | PWait id _ awake => (todo m id - 1) * mW n + if awake then 3 else 2
  end + mP n * length (mb_pending m).
Definition work (g : group) : nat := sumw (pw (length (g_members g))) (g_members g).

Lemma pw_wake n m : (pw n m <= pw n (wake m) <= pw n m + 1)%nat.
Proof.
  unfold wake, pw. destruct (mb_pc m) as [|id|h k|id|id t [|]] eqn:E; rewrite ?E; try lia; cbn [set_pc mb_pc mb_pending]; unfold todo; cbn [set_pc mb_win]; lia.
Qed.
Lemma sumw_wake n l : (sumw (pw n) (map wake l) <= sumw (pw n) l + length l)%nat.
Proof. induction l as [|m l IH]; cbn [map sumw length]; [lia|]. pose proof (pw_wake n m). lia. Qed.
Lemma pw_post n m t : pw n (post t m) = (pw n m + mP n)%nat.
Proof. unfold pw, post, kw, todo. cbn [mb_pc mb_pending mb_win]. rewrite app_length. cbn [length]. destruct (mb_pc m) as [| |? []| |]; lia. Qed.
Lemma sumw_post n t l : sumw (pw n) (map (post t) l) = (sumw (pw n) l + length l * mP n)%nat.
Proof. induction l as [|m l IH]; cbn [map sumw length Nat.mul]; [reflexivity|]. rewrite pw_post. lia. Qed.

Lemma pw_pc n m p : pw n (set_pc m p) = (match p with
  | PIdle => 0 | PLoop id => kw n m (KLoop id) | PReport _ k => n + 1 + kw n m k | PAlloc id => kw n m (KAlloc id)
  | PWait id _ awake => (todo m id - 1) * mW n + if awake then 3 else 2 end + mP n * length (mb_pending m))%nat.
Proof. unfold pw, set_pc, kw, todo. cbn [mb_pc mb_pending mb_win]. reflexivity. Qed.
Lemma pw_win n m w p : pw n (set_win m w p) = pw n (set_pc {| mb_win := w; mb_pc := mb_pc m; mb_pending := mb_pending m |} p).
Proof. reflexivity. Qed.

Lemma set_member_work g i m m' : nth_error (g_members g) i = Some m ->
  (work (set_member g i m') + pw (length (g_members g)) m = work g + pw (length (g_members g)) m')%nat.
Proof.
  intro H. unfold work. cbn [set_member g_members]. rewrite upd_length. apply sumw_upd. exact H.
Qed.

Lemma take_chunk_work g i m id alloc g' e : nth_error (g_members g) i = Some m -> w_tail (mb_win m) <= id -> 0 <= w_tail (mb_win m) -> id < 2 ^ 63 ->
  take_chunk g i m id alloc = Ok g' e ->
  (work g' + pw (length (g_members g)) m = work g + (1 + (todo m id - 1) * mW (length (g_members g)) + mP (length (g_members g)) * length (mb_pending m)))%nat.
Proof.
  intros Hm L0 L1 L2 S. unfold take_chunk in S. destruct (get_chunk _ _ _) as [[[w' x] o]|]; [|discriminate]. destruct (existsb is_ready x); [discriminate|].
  destruct (gc_store (mb_win m) o) as [mw|] eqn:Es; [|discriminate]. injection S as <- <-. unfold work. cbn [g_members]. rewrite upd_length.
  rewrite (sumw_upd _ _ _ _ _ Hm). f_equal. unfold pw, set_win, kw, todo. cbn [mb_pc mb_win mb_pending].
  unfold gc_store in Es. destruct (Nat.ltb _ _); [|discriminate]. injection Es as <-. cbn [w_tail]. rewrite u64_small by lia.
  replace (Z.to_nat (id + 1 - (w_tail (mb_win m) + 1))) with (Z.to_nat (id + 1 - w_tail (mb_win m)) - 1)%nat by lia. reflexivity.
Qed.

Lemma internal_work lossy gmax maxs g mon gl l g' e : ginv lossy gmax maxs g mon gl -> internal l = true -> g_step g l = Ok g' e -> (work g' < work g)%nat.
Proof.
  intros G I S. destruct l as [i id|i alloc|i j|i| |i|i id]; try discriminate; cbn [g_step] in S; destruct (nth_error (g_members g) i) as [m|] eqn:Hm; try discriminate;
    set (n := length (g_members g)) in *; destruct (member_data _ _ _ _ _ _ _ _ G Hm) as (mmax & hd & X1 & X2 & X3 & X4 & Mo).
  - destruct (mo_win _ _ _ _ _ _ _ _ Mo) as (live & Rl & _). pose proof (rp_range _ _ _ Rl) as (R1 & R2 & R3). pose proof (zlen_nonneg live). pose proof (mo_pc _ _ _ _ _ _ _ _ Mo) as Hp.
    unfold member_step in S. destruct (mb_pc m) as [|id|h k|id|id t [|]] eqn:Hpc; try discriminate.
    + destruct (Z.leb_spec (w_tail (mb_win m)) id) as [L|L].
      * destruct (gc_room_rep mmax (mb_win m) live Rl) as (w' & live' & x & F & R' & B1 & B2 & Cs). rewrite F in S. destruct (report_then x (KAlloc id)) as [p|] eqn:Er; [|discriminate].
        injection S as <- <-. pose proof (set_member_work g i m (set_win m w' p) Hm) as W. fold n in W. rewrite pw_win, pw_pc in W. cbn [mb_pending] in W.
        assert (Hw : pw n m = (1 + todo m id * mW n + mP n * length (mb_pending m))%nat) by (unfold pw; rewrite Hpc; reflexivity).
        assert (Ht : todo m id = S (todo m id - 1)) by (unfold todo; lia).
        assert (Hk : kw n {| mb_win := w'; mb_pc := mb_pc m; mb_pending := mb_pending m |} (KAlloc id) = ((todo m id - 1) * mW n + n * mP n + 4)%nat).
        { unfold kw, todo. cbn [mb_win]. rewrite B2. reflexivity. }
        assert (Hm' : (todo m id * mW n = mW n + (todo m id - 1) * mW n)%nat) by (rewrite Ht at 1; cbn [Nat.mul]; reflexivity).
        unfold mW in Hm' at 2. assert (n * mP n + n + 10 <= mW n)%nat by (unfold mW; lia).
        unfold report_then in Er. destruct (reported x) as [|h [|]]; [| |discriminate]; injection Er as <-; cbn [of_kont] in W; rewrite Hk in W; clear - W Hw Hm'; lia.
      * destruct (nth_error (w_slots _) _); [|discriminate]. injection S as <- <-. pose proof (set_member_work g i m (set_pc m PIdle) Hm) as W. fold n in W. rewrite pw_pc in W.
        assert (Hw : (1 + mP n * length (mb_pending m) <= pw n m)%nat) by (unfold pw; rewrite Hpc; cbn [kw]; lia). lia.
    + destruct (stream_head_updated g i h) as [[g1 e1]|] eqn:E; [|discriminate]. destruct (nth_error (g_members g1) i) as [m1|] eqn:E1; [|discriminate]. injection S as <- <-.
      assert (Q : (work g1 <= work g + n)%nat /\ length (g_members g1) = n /\ m1 = m).
      { unfold stream_head_updated in E. destruct (nth_error (g_heads g) i) as [old|]; [|discriminate]. destruct (old <? h); [|discriminate].
        destruct (w_head (g_win g) =? old).
        - destruct (flush_until _ _) as [[w' x]|]; [|discriminate]. injection E as <- <-. unfold work. cbn [g_members] in *.
          destruct (reported x); [split; [fold n; lia|]; split; [reflexivity|congruence]|]. rewrite map_length. fold n. split; [apply sumw_wake|]. split; [reflexivity|].
          rewrite nth_error_map, Hm in E1. injection E1 as <-. unfold wake. now rewrite Hpc.
        - injection E as <- <-. unfold work. cbn [g_members] in *. split; [fold n; lia|]. split; [reflexivity|congruence]. }
      destruct Q as (Q1 & Q2 & ->). pose proof (set_member_work g1 i m (set_pc m (of_kont k)) E1) as W. rewrite Q2, pw_pc in W.
      assert (Hw : pw n m = (n + 1 + kw n m k + mP n * length (mb_pending m))%nat) by (unfold pw; rewrite Hpc; reflexivity).
      destruct k; cbn [of_kont] in W |- *; cbn [kw] in *; clear - W Hw Q1; lia.
    + destruct Hp as [[P1 P2] P3]. assert (Hw : pw n m = ((todo m id - 1) * mW n + n * mP n + 4 + mP n * length (mb_pending m))%nat) by (unfold pw; rewrite Hpc; reflexivity).
      unfold group_get in S. destruct (_ <=? w_tail (mb_win m)); [|discriminate]. destruct (_ <=? u64 (w_tail (mb_win m) - _)).
      2:{ apply take_chunk_work in S; auto; [|lia]. fold n in S. clear - S Hw. lia. }
      set (target := u64 (w_tail (mb_win m) - (Z.of_nat (w_max (g_win g)) - 1))) in *. set (ps := g_lossy g && (g_last g <? target)) in *.
      set (ms := if ps then map (post target) (g_members g) else g_members g) in *. set (m' := if ps then post target m else m) in *.
      assert (Hms : nth_error ms i = Some m') by (unfold ms, m'; destruct ps; [rewrite nth_error_map, Hm|]; auto).
      assert (Lms : length ms = n) by (unfold ms; destruct ps; [apply map_length|reflexivity]).
      assert (Wms : sumw (pw n) ms = (work g + if ps then n * mP n else 0)%nat).
      { unfold ms, work. fold n. destruct ps; [rewrite sumw_post; fold n; lia|lia]. }
      assert (Wm' : pw n m' = (pw n m + if ps then mP n else 0)%nat) by (unfold m'; destruct ps; [apply pw_post|lia]).
      assert (Pm' : (mP n * length (mb_pending m') = mP n * length (mb_pending m) + if ps then mP n else 0)%nat).
      { unfold m'. destruct ps; [|lia]. cbn [post mb_pending]. rewrite app_length. cbn [length]. lia. }
      assert (Tm' : mb_win m' = mb_win m) by (unfold m'; now destruct ps).
      match type of S with (if _ then Ok (set_member ?gg _ _) _ else _) = _ => set (g1 := gg) in * end.
      assert (Wg1 : work g1 = (work g + if ps then n * mP n else 0)%nat) by (unfold work at 1; cbn [g1 g_members]; rewrite Lms; exact Wms).
      destruct (w_head (g_win g) <? target).
      * injection S as <- <-. pose proof (set_member_work g1 i m' (set_pc m' (PWait id target false)) Hms) as W. change (g_members g1) with ms in W. rewrite Lms, pw_pc in W.
        unfold todo in W. rewrite Tm' in W. fold (todo m id) in W. destruct ps; clear - W Wg1 Wm' Pm' Hw; lia.
      * apply take_chunk_work in S; [|exact Hms|rewrite Tm'; lia|rewrite Tm'; lia|lia]. change (g_members g1) with ms in S. rewrite Lms in S. unfold todo in S. rewrite Tm' in S. fold (todo m id) in S.
        destruct ps; clear - S Wg1 Wm' Pm' Hw; lia.
    + destruct Hp as ([[P1 P2] P3] & _). assert (Hw : pw n m = ((todo m id - 1) * mW n + 3 + mP n * length (mb_pending m))%nat) by (unfold pw; rewrite Hpc; reflexivity).
      destruct (_ <? t).
      * injection S as <- <-. pose proof (set_member_work g i m (set_pc m (PWait id t false)) Hm) as W. fold n in W. rewrite pw_pc in W. clear - W Hw. lia.
      * apply take_chunk_work in S; auto; [|lia]. fold n in S. clear - S Hw. lia.
  - destruct (mb_pc m) eqn:Hpc; try discriminate. destruct (nth_error (mb_pending m) j) as [t|] eqn:Hj; [|discriminate].
    destruct (flush_until _ _) as [[w' x]|]; [|discriminate]. destruct (report_then x KIdle) as [p|] eqn:Er; [|discriminate]. injection S as <- <-.
    match goal with |- context [set_member g i ?mm] => set (m' := mm) in * end. pose proof (set_member_work g i m m' Hm) as W. fold n in W.
    destruct (remove_at_split _ _ _ Hj) as (l1 & l2 & Hl1 & Hl2).
    assert (Hw : pw n m = (mP n * S (length (l1 ++ l2)))%nat) by (unfold pw; rewrite Hpc, Hl1, !app_length; cbn [length Nat.add]; f_equal; lia).
    assert (Hw' : (pw n m' <= n + 1 + mP n * length (l1 ++ l2))%nat).
    { unfold pw, m'. cbn [mb_pc mb_pending]. rewrite Hl2. unfold report_then in Er. destruct (reported x) as [|h [|]]; [| |discriminate]; injection Er as <-; cbn [of_kont kw]; lia. }
    rewrite Nat.mul_succ_r in Hw. unfold mP in Hw at 2. clear - W Hw Hw'. lia.
Qed.

(** And it does come to rest: however the calls in progress and the posted
    flushes are interleaved, with wakeups possibly spurious, the number of their
    steps is bounded.  With C33_no_deadlock: every waiting member continues, and
    its call returns. *)
Definition count (p : glabel -> bool) (l : list glabel) : nat := length (filter p l).
Theorem C33_progress : forall lossy gmax maxs g tr, group_ok gmax maxs -> g_reach (group_new lossy gmax maxs) g tr ->
  exists bound, forall ls g' e, Forall (fun l => internal l = true \/ spurious l = true) ls -> g_run g ls = Some (g', e) ->
    (count internal ls <= bound + count spurious ls)%nat.
Proof.
  intros lossy gmax maxs g tr (H1 & H2 & H3) R. destruct (ginv_reach lossy gmax maxs g tr H1 H2 H3 R) as (mon & gl & M & G). clear R tr M. exists (work g).
  intro ls. revert g mon gl G. induction ls as [|l ls IH]; intros g mon gl G g' e Hf Hr; [cbn; lia|]. apply Forall_cons_iff in Hf as [Hl Hf]. cbn [g_run] in Hr.
  destruct (g_step g l) as [| |g1 e1] eqn:S; try discriminate. destruct (g_run g1 ls) as [[g2 e2]|] eqn:Hr1; [|discriminate].
  pose proof (g_step_ok _ _ _ _ _ _ l G) as K. rewrite S in K. destruct K as (mon' & gl' & _ & G'). specialize (IH g1 mon' gl' G' _ _ Hf Hr1).
  unfold count in *. cbn [filter]. destruct Hl as [Hl|Hl].
  - pose proof (internal_work _ _ _ _ _ _ _ _ _ G Hl S). rewrite Hl. destruct l; try discriminate; cbn [spurious length]; lia.
  - assert (W : (work g1 <= work g + 1)%nat).
    { destruct l as [ | | | | |i| ]; try discriminate. cbn [g_step] in S. destruct (nth_error (g_members g) i) as [m|] eqn:Hm; [|discriminate]. injection S as <- <-.
      pose proof (set_member_work g i m (wake m) Hm). pose proof (pw_wake (length (g_members g)) m). lia. }
    rewrite Hl. destruct l; try discriminate; cbn [internal length]; lia.
Qed.
Print Assumptions C33_progress.

(** *** C53: stop *)
(** After the flushes posted by stop() (:143-153), a member's window is past
    everything or such a flush is outstanding. *)
Definition stopping (m : member) : Prop := w_head (mb_win m) = u64_max \/ In u64_max (mb_pending m).
Lemma rep_head_max max w live : rep max w live -> w_head w <= u64_max.
Proof. intros R. pose proof (rp_range _ _ _ R) as (R1 & R2 & R3). pose proof (zlen_nonneg live). unfold u64_max. lia. Qed.
Lemma stopping_wake m : stopping m -> stopping (wake m).
Proof. unfold stopping, wake. destruct (mb_pc m); cbn [set_pc mb_win mb_pending]; auto. Qed.
Lemma stopping_post m t : stopping m -> stopping (post t m).
Proof. unfold stopping, post. cbn [mb_win mb_pending]. rewrite in_app_iff. tauto. Qed.
Lemma stopping_map f l : (forall m, stopping m -> stopping (f m)) -> Forall stopping l -> Forall stopping (map f l).
Proof. intros H. induction 1; cbn [map]; constructor; auto. Qed.
Lemma take_chunk_stopping g i m id alloc g' e : Forall stopping (g_members g) -> stopping m -> take_chunk g i m id alloc = Ok g' e -> Forall stopping (g_members g').
Proof.
  intros F Hm S. unfold take_chunk in S. destruct (get_chunk _ _ _) as [[[w' x] o]|]; [|discriminate]. destruct (existsb is_ready x); [discriminate|].
  destruct (gc_store (mb_win m) o) as [mw|] eqn:Es; [|discriminate]. injection S as <- <-. cbn [g_members]. apply Forall_upd; [exact F|].
  unfold gc_store in Es. destruct (Nat.ltb _ _); [|discriminate]. injection Es as <-. exact Hm.
Qed.
Lemma stopping_step lossy gmax maxs g mon gl l g' e : ginv lossy gmax maxs g mon gl -> g_step g l = Ok g' e -> Forall stopping (g_members g) -> Forall stopping (g_members g').
Proof.
  intros G S F. assert (FI : forall i m, nth_error (g_members g) i = Some m -> stopping m) by (intros i m Hm; rewrite Forall_forall in F; apply F; eapply nth_error_In; eauto).
  destruct l as [i id|i alloc|i j|i| |i|i id]; cbn [g_step] in S; try (destruct (nth_error (g_members g) i) as [m|] eqn:Hm; [|discriminate];
    destruct (member_data _ _ _ _ _ _ _ _ G Hm) as (mmax & hd & X1 & X2 & X3 & X4 & Mo); destruct (mo_win _ _ _ _ _ _ _ _ Mo) as (live & R & _); pose proof (FI _ _ Hm) as Fm).
  - destruct (mb_pc m) eqn:Hpc; try discriminate. destruct (Z.leb_spec 0 id); [|discriminate]. destruct (Z.ltb_spec id (2 ^ 63)); [|discriminate]. cbn [andb] in S.
    destruct (Z.leb_spec (w_head (mb_win m)) id); [|injection S as <- <-; exact F].
    destruct (gc_jump_rep mmax (mb_win m) live id R ltac:(lia)) as (w' & live' & x & E & R' & B1 & B2 & B3 & Cs). rewrite E in S. destruct (report_then _ _); [|discriminate]. injection S as <- <-.
    cbn [set_member g_members]. apply Forall_upd; [exact F|]. destruct Fm as [Fm|Fm]; [|now right]. left. cbn [set_win mb_win]. pose proof (rep_head_max _ _ _ R').
    destruct Cs as [(_ & -> & _)|(_ & Cs & _)]; [exact Fm|lia].
  - unfold member_step in S. destruct (mb_pc m) as [|id|h k|id|id t [|]] eqn:Hpc; try discriminate.
    + destruct (_ <=? id).
      * destruct (gc_room_rep mmax (mb_win m) live R) as (w' & live' & x & E & R' & B1 & B2 & Cs). rewrite E in S. destruct (report_then _ _); [|discriminate]. injection S as <- <-.
        cbn [set_member g_members]. apply Forall_upd; [exact F|]. destruct Fm as [Fm|Fm]; [|now right]. left. cbn [set_win mb_win]. pose proof (rep_head_max _ _ _ R').
        destruct Cs as [(_ & -> & _)|(_ & Cs & _)]; [exact Fm|lia].
      * destruct (nth_error (w_slots _) _); [|discriminate]. injection S as <- <-. cbn [set_member g_members]. apply Forall_upd; [exact F|exact Fm].
    + destruct (stream_head_updated g i h) as [[g1 e1]|] eqn:E; [|discriminate]. destruct (nth_error (g_members g1) i) as [m1|] eqn:E1; [|discriminate]. injection S as <- <-.
      assert (F1 : Forall stopping (g_members g1)).
      { unfold stream_head_updated in E. destruct (nth_error (g_heads g) i) as [old|]; [|discriminate]. destruct (old <? h); [|discriminate]. destruct (w_head (g_win g) =? old).
        - destruct (flush_until _ _) as [[w' x]|]; [|discriminate]. injection E as <- <-. cbn [g_members]. destruct (reported x); [exact F|]. apply stopping_map; [exact stopping_wake|exact F].
        - injection E as <- <-. exact F. }
      cbn [set_member g_members]. apply Forall_upd; [exact F1|]. rewrite Forall_forall in F1. exact (F1 _ (nth_error_In _ _ E1)).
    + unfold group_get in S. destruct (_ <=? w_tail (mb_win m)); [|discriminate]. destruct (_ <=? u64 (w_tail (mb_win m) - _)); [|eapply take_chunk_stopping; eauto].
      set (target := u64 (w_tail (mb_win m) - (Z.of_nat (w_max (g_win g)) - 1))) in *. set (ps := g_lossy g && (g_last g <? target)) in *.
      set (ms := if ps then map (post target) (g_members g) else g_members g) in *. set (m' := if ps then post target m else m) in *.
      assert (Hms : Forall stopping ms) by (unfold ms; destruct ps; [apply stopping_map; [intro; apply stopping_post|exact F]|exact F]).
      assert (Hm' : stopping m') by (unfold m'; destruct ps; [now apply stopping_post|exact Fm]).
      destruct (w_head (g_win g) <? target).
      * injection S as <- <-. cbn [set_member g_members]. apply Forall_upd; [exact Hms|exact Hm'].
      * eapply take_chunk_stopping; [|exact Hm'|exact S]. exact Hms.
    + destruct (_ <? t); [|eapply take_chunk_stopping; eauto]. injection S as <- <-. cbn [set_member g_members]. apply Forall_upd; [exact F|exact Fm].
  - destruct (mb_pc m) eqn:Hpc; try discriminate. destruct (nth_error (mb_pending m) j) as [t|] eqn:Hj; [|discriminate].
    destruct (flush_until (mb_win m) t) as [[w' x]|] eqn:E; [|discriminate]. destruct (report_then _ _); [|discriminate]. injection S as <- <-.
    cbn [set_member g_members]. apply Forall_upd; [exact F|]. destruct (remove_at_split _ _ _ Hj) as (l1 & l2 & Hl1 & Hl2).
    assert (Ht : 0 <= t < 2 ^ 64) by (pose proof (mo_pending _ _ _ _ _ _ _ _ Mo) as P; rewrite Forall_forall in P; apply P; eapply nth_error_In; eauto).
    assert (Hh : w_head w' = Z.max (w_head (mb_win m)) t).
    { destruct (Z.ltb_spec (w_head (mb_win m)) t) as [L|L].
      - destruct (flush_until_rep mmax (mb_win m) live t R Ht L) as (k & w2 & live' & F2 & R' & Hh & _). rewrite F2 in E. injection E as <- <-. lia.
      - unfold flush_until in E. destruct (Z.ltb_spec (w_head (mb_win m)) t); [lia|]. injection E as <- <-. lia. }
    unfold stopping in *. cbn [mb_win mb_pending]. rewrite Hl2, Hh. rewrite Hl1 in Fm. rewrite !in_app_iff in *. cbn [In] in Fm. unfold u64_max in *. pose proof (rep_head_max _ _ _ R). unfold u64_max in *.
    destruct Fm as [Fm|[Fm|[Fm|Fm]]]; [left; lia|auto|left; lia|auto].
  - destruct (mb_pc m) eqn:Hpc; try discriminate. pose proof (rp_range _ _ _ R) as (R1 & R2 & R3).
    destruct (flush_all_rep mmax (mb_win m) live u64_max R ltac:(unfold u64_max; lia)) as (w' & E & R' & Hh & Ht). rewrite E in S.
    destruct (report_then _ _); [|discriminate]. injection S as <- <-. cbn [set_member g_members]. apply Forall_upd; [exact F|]. left. exact Hh.
  - injection S as <- <-. cbn [g_members]. apply stopping_map; [intro; apply stopping_post|exact F].
  - injection S as <- <-. cbn [set_member g_members]. apply Forall_upd; [exact F|]. now apply stopping_wake.
  - destruct (mb_pc m); try discriminate. destruct (get_const _ _) as [[c|]|]; try discriminate. destruct (_ && _); [|discriminate]. injection S as <- <-. exact F.
Qed.

(** Once stop() has posted its flushes, no member stays blocked, in either mode:
    when nothing can go on, no call is in progress and every chunk obtained from
    the allocator has been made ready. *)
Theorem C53_stop : forall lossy gmax maxs g0 tr0 g1 e1 ls g e, group_ok gmax maxs -> g_reach (group_new lossy gmax maxs) g0 tr0 ->
  g_step g0 LPostStop = Ok g1 e1 -> g_run g1 ls = Some (g, e) -> (forall l, internal l = true -> g_step g l = Blocked) ->
  (forall m, In m (g_members g) -> mb_pc m = PIdle /\ w_head (mb_win m) = u64_max) /\
  readies (chunk_events (tr0 ++ e1 ++ e)) = map snd (allocs (chunk_events (tr0 ++ e1 ++ e))).
Proof.
  intros lossy gmax maxs g0 tr0 g1 e1 ls g e Ok0 R S1 Hr Q. pose proof Ok0 as (H1 & H2 & H3).
  assert (R1 : g_reach (group_new lossy gmax maxs) g1 (tr0 ++ e1)) by (eapply gr_step; eauto).
  assert (F1 : Forall stopping (g_members g1)).
  { cbn [g_step] in S1. injection S1 as <- <-. cbn [g_members]. apply Forall_forall. intros m Hm. apply in_map_iff in Hm as (m0 & <- & _). right. cbn [post mb_pending]. apply in_or_app. right. now left. }
  assert (X : g_reach (group_new lossy gmax maxs) g (tr0 ++ e1 ++ e) /\ Forall stopping (g_members g)).
  { clear Q S1 R. revert g1 e1 e R1 F1 Hr. induction ls as [|l ls IH]; intros g1 e1 e R1 F1 Hr; cbn [g_run] in Hr.
    - injection Hr as <- <-. rewrite app_nil_r. auto.
    - destruct (g_step g1 l) as [| |g2 e2] eqn:S; try discriminate. destruct (g_run g2 ls) as [[g3 e3]|] eqn:E; [|discriminate]. injection Hr as <- <-.
      destruct (ginv_reach lossy gmax maxs g1 _ H1 H2 H3 R1) as (mon & gl & M & G). pose proof (stopping_step _ _ _ _ _ _ _ _ _ G S F1) as F2.
      assert (R2 : g_reach (group_new lossy gmax maxs) g2 (tr0 ++ (e1 ++ e2))) by (rewrite app_assoc; eapply gr_step; eauto).
      destruct (IH g2 (e1 ++ e2) e3 R2 F2 E) as [A B]. split; [|exact B]. now rewrite <- app_assoc in A. }
  destruct X as [Rg Fg]. destruct (ginv_reach lossy gmax maxs g _ H1 H2 H3 Rg) as (mon & gl & M & G).
  pose proof (rp_range _ _ _ (j_rep _ _ _ _ (proj1 (gi_win _ _ _ _ _ _ G)))) as (Q1 & Q2 & Q3). pose proof (zlen_nonneg gl).
  (* as in C33_no_deadlock *)
  assert (Hpc : forall i m, nth_error (g_members g) i = Some m -> (mb_pc m = PIdle /\ mb_pending m = []) \/ exists id t, mb_pc m = PWait id t false).
  { apply (blocked_pcs lossy gmax maxs g (tr0 ++ e1 ++ e)); auto. }
  assert (Hidle : forall i m, nth_error (g_members g) i = Some m -> mb_pc m = PIdle -> w_head (mb_win m) = u64_max).
  { intros i m Hm D. destruct (Hpc i m Hm) as [[_ D2]|(id & t & D2)]; [|congruence]. rewrite Forall_forall in Fg. destruct (Fg m (nth_error_In _ _ Hm)) as [A|A]; [exact A|]. rewrite D2 in A. destruct A. }
  assert (Hmin : w_head (g_win g) = u64_max).
  { destruct (gi_min _ _ _ _ _ _ G) as [Hj _]. apply In_nth_error in Hj as [j Hj]. destruct (gi_len _ _ _ _ _ _ G) as [L1 L2].
    assert (j < length (g_heads g))%nat by (apply nth_error_Some; congruence).
    destruct (nth_error (g_members g) j) as [mj|] eqn:Em; [|apply nth_error_None in Em; lia].
    destruct (member_data _ _ _ _ _ _ _ _ G Em) as (mxj & hj & Y1 & Y2 & Y3 & Y4 & Mj). rewrite Hj in Y2. injection Y2 as <-.
    pose proof (mo_head _ _ _ _ _ _ _ _ Mj) as Hh. destruct (Hpc j mj Em) as [[D1 D2]|(id' & t' & D')].
    - rewrite D1 in Hh. rewrite Hh. eauto.
    - rewrite D' in Hh. pose proof (mo_sleep _ _ _ _ _ _ _ _ Mj _ _ D') as Hs'. pose proof (mo_pc _ _ _ _ _ _ _ _ Mj) as P'. rewrite D' in P'.
      destruct P' as ((_ & P1) & P2 & _). lia. }
  split.
  - intros m Hm. apply In_nth_error in Hm as [i Hi]. destruct (Hpc i m Hi) as [[D1 D2]|(id & t & D)]; [split; [exact D1|]; eauto|exfalso].
    destruct (member_data _ _ _ _ _ _ _ _ G Hi) as (mmax & hd & X1 & X2 & X3 & X4 & Mo). pose proof (mo_sleep _ _ _ _ _ _ _ _ Mo _ _ D) as Hs.
    pose proof (mo_pc _ _ _ _ _ _ _ _ Mo) as P. rewrite D in P. destruct P as (((_ & P1) & _) & P2 & _). unfold u64_max in *. assert (2 ^ 63 < 2 ^ 64 - 1) by reflexivity.
    destruct (mo_win _ _ _ _ _ _ _ _ Mo) as (live & Rl & _). pose proof (rp_range _ _ _ Rl) as (? & ? & ?). lia.
  - destruct (handover_pairs _ _ _ _ M) as (gone & A & B). rewrite (j_out _ _ _ _ (proj1 (gi_win _ _ _ _ _ _ G))) in A. cbn [cmon0 cm_out app] in A. rewrite A, <- B, map_app.
    destruct gl as [|o gl]; [cbn [outs map]; now rewrite app_nil_r|]. exfalso. unfold zlen in Q2. cbn [length] in Q2. unfold u64_max in *. lia.
Qed.
Print Assumptions C53_stop.

(** *** Examples *)
(** Two members, a group window of 2.  Member 0 goes to chunk 3 while member 1 is
    still at chunk 0: member 0 has to wait for member 1, which is flushed. *)
Definition ex_alloc (id : Z) : option Z := Some (100 + id).
Definition ex_labels : list glabel :=
  [LGet 1 0; LStep 1 ex_alloc; LStep 1 ex_alloc; LStep 1 ex_alloc; LTouch 1 0;
   LGet 0 1; LStep 0 ex_alloc; LStep 0 ex_alloc; LStep 0 ex_alloc; LStep 0 ex_alloc; LStep 0 ex_alloc; LTouch 0 1;
   LGet 0 2; LStep 0 ex_alloc; LStep 0 ex_alloc; LStep 0 ex_alloc].
Definition ex_group : group := group_new true 2 [2; 1]%nat.
Example group_ex_ok : group_ok 2 [2; 1]%nat.
Proof. split; [reflexivity|]. split; [|discriminate]. repeat constructor. Qed.
Definition ex_state : group := match g_run ex_group ex_labels with Some (g, _) => g | None => ex_group end.
Example group_ex_waits : map mb_pc (g_members ex_state) = [PWait 2 1 false; PIdle] /\ map mb_pending (g_members ex_state) = [[1]; [1]] /\
  exists tr, g_reach ex_group ex_state tr /\ tr = [GChunk (EAlloc 0 (Some 100)); GTouch 1 0 100; GChunk (EAlloc 1 (Some 101)); GTouch 0 1 101].
Proof.
  split; [reflexivity|]. split; [reflexivity|]. eexists. split; [|reflexivity].
  apply (g_run_reach ex_group ex_labels ex_group []); [constructor|]. vm_compute. reflexivity.
Qed.
(** The flush of member 1 makes chunk 0 ready and member 0 goes on. *)
Definition ex_labels2 : list glabel := [LFlush 1 0; LStep 1 ex_alloc; LStep 0 ex_alloc; LStep 0 ex_alloc; LFlush 0 0].
Example group_ex_goes_on : exists g', g_run ex_state ex_labels2 = Some (g', [GChunk (EReady 100); GChunk (EHead 1); GChunk (EAlloc 2 (Some 102))]) /\
  map mb_pc (g_members g') = [PIdle; PIdle] /\ map mb_pending (g_members g') = [[]; []] /\ map (fun m => w_head (mb_win m)) (g_members g') = [1; 1].
Proof. eexists. split; [vm_compute; reflexivity|]. vm_compute. auto. Qed.
(** The state it ends in meets the hypothesis of C33_no_deadlock. *)
Example group_ex_quiescent : forall g', g_run ex_state ex_labels2 = Some (g', [GChunk (EReady 100); GChunk (EHead 1); GChunk (EAlloc 2 (Some 102))]) ->
  forall l, internal l = true -> g_step g' l = Blocked.
Proof.
  intros g' H l Hl. vm_compute in H. injection H as <-. destruct l as [|i al|i j| | | |]; try discriminate.
  - destruct i as [|[|i]]; [reflexivity|reflexivity|destruct i; reflexivity].
  - destruct i as [|[|i]]; [destruct j; reflexivity|destruct j; reflexivity|destruct i; reflexivity].
Qed.

(** Lossless: member 0 waits for member 1 until stop() posts its flushes. *)
Definition ex_lossless : group := match g_run (group_new false 2 [2; 1]%nat) ex_labels with Some (g, _) => g | None => ex_group end.
Example group_ex_lossless : g_step ex_lossless (LStep 0 ex_alloc) = Blocked /\ g_step ex_lossless (LFlush 1 0) = Blocked /\
  exists g', g_run ex_lossless [LPostStop; LFlush 1 0; LStep 1 ex_alloc; LStep 0 ex_alloc; LStep 0 ex_alloc; LFlush 0 0; LStep 0 ex_alloc] =
    Some (g', [GChunk (EReady 100); GChunk (EHead 1); GChunk (EAlloc 2 (Some 102)); GChunk (EReady 101); GChunk (EReady 102); GChunk (EHead u64_max)]) /\
    map mb_pc (g_members g') = [PIdle; PIdle] /\ map mb_pending (g_members g') = [[]; []].
Proof. split; [reflexivity|]. split; [reflexivity|]. eexists. split; [vm_compute; reflexivity|]. vm_compute. auto. Qed.
