(** Invariant of a chunk stream group. *)
From Coq Require Import ZArith List Bool Lia.
From Verif Require Import Base ConcBase ChunkModel ChunkSpec ChunkProofs GroupModel.
Import ListNotations.
Open Scope Z_scope.

(** ** The windows' functions as seen by the group *)
Lemma reported_rlist l : reported (rlist l) = [].
Proof. unfold reported, rlist. induction l as [|o l IH]; [reflexivity|]. cbn [flat_map]. destruct o; cbn [revs app flat_map]; exact IH. Qed.
Lemma reported_app l1 l2 : reported (l1 ++ l2) = reported l1 ++ reported l2.
Proof. unfold reported. apply flat_map_app. Qed.

Lemma gc_jump_rep max w live id : rep max w live -> w_head w <= id < 2 ^ 63 ->
  exists w' live' e, gc_jump w id = Some (w', e) /\ rep max w' live' /\ id + 1 - w_tail w' <= Z.of_nat max /\ w_head w' <= id /\ w_tail w <= w_tail w' /\
    ((e = [] /\ w' = w /\ live' = live) \/ (reported e = [w_head w'] /\ w_head w < w_head w' /\ live' = [])).
Proof.
  intros R Hid. pose proof (rp_range _ _ _ R) as (R1 & R2 & R3). pose proof (rp_max _ _ _ R) as [Rm1 Rm2].
  assert (H64 : 2 ^ 64 = 2 ^ 63 + 2 ^ 63) by reflexivity. pose proof (zlen_nonneg live).
  unfold gc_jump, w_max. rewrite (rp_len _ _ _ R). destruct (Z.leb_spec (w_tail w) id) as [L|L]; cbn [andb].
  - rewrite (u64_small (id - w_tail w)) by lia. destruct (Z.leb_spec (Z.of_nat max) (id - w_tail w)) as [L2|L2].
    + rewrite u64_small by lia. destruct (flush_all_rep max w live (id - (Z.of_nat max - 1)) R ltac:(lia)) as (w' & F & R' & Hh & Ht).
      destruct (Z.eqb_spec (id - (Z.of_nat max - 1)) (w_head w)); [lia|].
      eexists w', [], _. split; [exact F|]. split; [exact R'|]. split; [lia|]. split; [lia|]. split; [lia|]. right.
      rewrite reported_app, reported_rlist, Hh. split; [reflexivity|]. split; [lia|reflexivity].
    + exists w, live, []. split; [reflexivity|]. split; [exact R|]. split; [lia|]. split; [lia|]. split; [lia|left; auto].
  - exists w, live, []. split; [reflexivity|]. split; [exact R|]. split; [lia|]. split; [lia|]. split; [lia|left; auto].
Qed.

Lemma gc_room_rep max w live : rep max w live ->
  exists w' live' e, gc_room w = Some (w', e) /\ rep max w' live' /\ (length live' < max)%nat /\ w_tail w' = w_tail w /\
    ((e = [] /\ w' = w /\ live' = live) \/ (reported e = [w_head w'] /\ w_head w' = w_head w + 1 /\ live' = skipn 1 live /\ live <> [])).
Proof.
  intros R. pose proof (rp_range _ _ _ R) as (R1 & R2 & R3). pose proof (rp_live _ _ _ R) as Rl. pose proof (rp_max _ _ _ R) as [Rm1 Rm2]. unfold zlen in R2.
  unfold gc_room, w_max. rewrite (rp_len _ _ _ R), u64_small by lia. destruct (Z.eqb_spec (w_tail w - w_head w) (Z.of_nat max)) as [E|E].
  - destruct live as [|o live]; cbn [length] in *; [lia|]. unfold flush_head_report.
    destruct (flush_head_rep max w o live R) as (w1 & F & R' & Hh & Ht). rewrite F. eexists w1, live, _. split; [reflexivity|]. split; [exact R'|].
    split; [lia|]. split; [exact Ht|]. right. rewrite reported_app. split; [destruct o; reflexivity|]. split; [exact Hh|]. split; [reflexivity|discriminate].
  - exists w, live, []. split; [reflexivity|]. split; [exact R|]. split; [lia|]. split; [reflexivity|left; auto].
Qed.

Lemma flush_until_cases w t w' e : flush_until w t = Some (w', e) ->
  (w_head w < t /\ reported e <> []) \/ (t <= w_head w /\ e = [] /\ w' = w).
Proof.
  unfold flush_until. destruct (Z.ltb_spec (w_head w) t) as [L|L].
  - destruct (flush_loop (w_max w) t w) as [[w1 e1]|]; [|discriminate]. intros [= <- <-]. left. split; [exact L|]. rewrite reported_app. cbn [reported flat_map app].
    intro X. symmetry in X. now apply app_cons_not_nil in X.
  - intros [= <- <-]. right. auto.
Qed.

(** A request within the span of the window makes nothing ready. *)
Lemma gc_loop_inside max id alloc : id < 2 ^ 63 -> forall n m w live w' e, JB max m w live -> id - w_head w < Z.of_nat max ->
  gc_loop n w id alloc = Some (w', e) -> w_head w' = w_head w /\ existsb is_ready e = false /\ reported e = [].
Proof.
  intro Hid. induction n as [|n IH]; intros m w live w' e Hj Hin F; cbn [gc_loop] in F.
  - destruct (w_tail w <=? id); [discriminate|]. injection F as <- <-. auto.
  - destruct (Z.leb_spec (w_tail w) id) as [L|L]; [|injection F as <- <-; auto].
    pose proof (rp_range _ _ _ (j_rep _ _ _ _ (proj1 Hj))) as (R1 & R2 & R3). pose proof (zlen_nonneg live).
    assert (E : gc_room w = Some (w, [])).
    { unfold gc_room, w_max. rewrite (rp_len _ _ _ (j_rep _ _ _ _ (proj1 Hj))), u64_small by lia. destruct (Z.eqb_spec (w_tail w - w_head w) (Z.of_nat max)); [lia|reflexivity]. }
    rewrite E in F. destruct (J_store max m w live (alloc (w_tail w)) Hj ltac:(unfold zlen in *; lia) ltac:(lia)) as (w2 & m2 & F2 & M2 & J2 & Hh2 & Ht2 & _). rewrite F2 in F.
    destruct (gc_loop n w2 id alloc) as [[w3 e3]|] eqn:E3; [|discriminate]. injection F as <- <-.
    destruct (IH m2 w2 _ w3 e3 J2 ltac:(lia) E3) as (A1 & A2 & A3). split; [congruence|]. cbn [app existsb is_ready orb]. split; [exact A2|exact A3].
Qed.
Lemma get_chunk_inside max m w live id alloc w' e o : JB max m w live -> 0 <= id < 2 ^ 63 -> id - w_head w < Z.of_nat max ->
  get_chunk w id alloc = Some (w', e, o) -> w_head w' = w_head w /\ existsb is_ready e = false /\ reported e = [].
Proof.
  intros Hj Hid Hin F. unfold get_chunk in F. destruct (Z.leb_spec 0 id); [|lia]. destruct (Z.ltb_spec id (2 ^ 63)); [|lia]. cbn [andb] in F.
  destruct (Z.leb_spec (w_head w) id) as [L|L]; [|injection F as <- <- <-; auto].
  pose proof (rp_range _ _ _ (j_rep _ _ _ _ (proj1 Hj))) as (R1 & R2 & R3). pose proof (zlen_nonneg live).
  assert (E : gc_jump w id = Some (w, [])).
  { unfold gc_jump, w_max. rewrite (rp_len _ _ _ (j_rep _ _ _ _ (proj1 Hj))). destruct (Z.leb_spec (w_tail w) id); [|reflexivity]. cbn [andb].
    assert (2 ^ 64 = 2 ^ 63 + 2 ^ 63) by reflexivity. rewrite u64_small by lia. destruct (Z.leb_spec (Z.of_nat max) (id - w_tail w)); [lia|reflexivity]. }
  rewrite E in F. destruct (gc_loop (w_max w) w id alloc) as [[w2 e2]|] eqn:E2; [|discriminate]. destruct (nth_error (w_slots w2) (chunk_pos w2 id)); [|discriminate].
  injection F as <- <- <-. cbn [app]. eapply (gc_loop_inside max id alloc); eauto; lia.
Qed.

(** ** Minimum of the heads *)
Lemma fold_min_le : forall l x, fold_left Z.min l x <= x /\ Forall (fun y => fold_left Z.min l x <= y) l.
Proof.
  induction l as [|y l IH]; intro x; cbn [fold_left]; [split; [lia|constructor]|]. destruct (IH (Z.min x y)) as [H1 H2]. split; [lia|]. constructor; [lia|exact H2].
Qed.
Lemma fold_min_in : forall l x, fold_left Z.min l x = x \/ In (fold_left Z.min l x) l.
Proof.
  induction l as [|y l IH]; intro x; cbn [fold_left In]; [now left|]. destruct (IH (Z.min x y)) as [H|H]; [|now right; right].
  rewrite H. destruct (Z.min_spec x y) as [[_ ->]|[_ ->]]; auto.
Qed.
Lemma min_list_le l : Forall (fun y => min_list l <= y) l.
Proof. destruct l as [|x l]; [constructor|]. cbn [min_list]. destruct (fold_min_le l x). now constructor. Qed.
Lemma min_list_in l : l <> [] -> In (min_list l) l.
Proof. destruct l as [|x l]; [congruence|]. intros _. cbn [min_list In]. destruct (fold_min_in l x); auto. Qed.
Lemma min_list_unique l v : In v l -> Forall (fun y => v <= y) l -> min_list l = v.
Proof.
  intros Hi Hf. assert (l <> []) by (intros ->; destruct Hi). pose proof (min_list_in l H) as Hm. pose proof (min_list_le l) as Hl.
  rewrite Forall_forall in Hf, Hl. specialize (Hf _ Hm). specialize (Hl _ Hi). lia.
Qed.

(** ** The invariant *)
(** The member's chunks are the group's. *)
Definition corr (gw : window) (glive : list (option Z)) (w : window) (live : list (option Z)) : Prop :=
  forall k o, nth_error live k = Some o -> w_head w + Z.of_nat k < w_tail gw /\ nth (Z.to_nat (w_head w + Z.of_nat k - w_head gw)) glive None = o.
Definition loop_ok (m : member) (id : Z) : Prop := w_head (mb_win m) <= id < 2 ^ 63.
Definition alloc_ok (mmax : nat) (m : member) (id : Z) : Prop :=
  w_tail (mb_win m) <= id < 2 ^ 63 /\ w_tail (mb_win m) - w_head (mb_win m) < Z.of_nat mmax.
Definition kont_ok (mmax : nat) (m : member) (k : kont) : Prop :=
  match k with KIdle => True | KLoop id => loop_ok m id | KAlloc id => alloc_ok mmax m id end.
Record member_ok (lossy : bool) (gmax : nat) (gw : window) (glive : list (option Z)) (last hd : Z) (mmax : nat) (m : member) : Prop := {
  mo_win : exists live, rep mmax (mb_win m) live /\ corr gw glive (mb_win m) live;
  mo_head : match mb_pc m with PReport h _ => h = w_head (mb_win m) /\ hd < h | _ => hd = w_head (mb_win m) end;
  mo_pc : match mb_pc m with
          | PIdle => True
          | PLoop id => loop_ok m id
          | PReport _ k => kont_ok mmax m k
          | PAlloc id => alloc_ok mmax m id
          | PWait id t _ => alloc_ok mmax m id /\ t = w_tail (mb_win m) - (Z.of_nat gmax - 1) /\ 0 <= t /\ (lossy = true -> t <= last)
          end;
  mo_sleep : forall id t, mb_pc m = PWait id t false -> w_head gw < t;
  mo_pending : Forall (fun t => 0 <= t < 2 ^ 64) (mb_pending m);
  mo_lossy : lossy = true -> last <= w_head (mb_win m) \/ exists t, In t (mb_pending m) /\ last <= t }.

Record ginv (lossy : bool) (gmax : nat) (maxs : list nat) (g : group) (mon : cmon) (glive : list (option Z)) : Prop := {
  gi_win : JB gmax mon (g_win g) glive;
  gi_lossy : g_lossy g = lossy;
  gi_len : length (g_heads g) = length maxs /\ length (g_members g) = length maxs;
  gi_max : Forall (fun x => (0 < x <= gmax)%nat) maxs;
  gi_ne : maxs <> [];
  gi_min : In (w_head (g_win g)) (g_heads g) /\ Forall (fun h => w_head (g_win g) <= h) (g_heads g);
  gi_last : 0 <= g_last g < 2 ^ 64;
  gi_members : forall i m mmax hd, nth_error (g_members g) i = Some m -> nth_error maxs i = Some mmax -> nth_error (g_heads g) i = Some hd ->
    member_ok lossy gmax (g_win g) glive (g_last g) hd mmax m }.

Lemma corr_stable gw gl gw' gl' w live hd : corr gw gl w live -> stable gw gl gw' gl' -> w_head gw' <= hd <= w_head w -> corr gw' gl' w live.
Proof.
  intros C (S1 & S2 & S3) H k o Hk. destruct (C k o Hk) as [C1 C2]. split; [lia|]. rewrite S3 by lia. exact C2.
Qed.
Lemma corr_skip gw gl w live w' k : corr gw gl w live -> w_head w' = w_head w + Z.of_nat k -> corr gw gl w' (skipn k live).
Proof.
  intros C H j o Hj. assert (X : nth_error live (k + j) = Some o).
  { rewrite <- Hj. clear. revert live. induction k as [|k IH]; intros live; [reflexivity|]. destruct live; [now destruct j|]. exact (IH live). }
  destruct (C _ _ X) as [C1 C2]. rewrite <- C2. split; [lia|]. f_equal. lia.
Qed.
Lemma corr_nil gw gl w : corr gw gl w [].
Proof. intros k o H. now destruct k. Qed.

Lemma mo_hd_le lossy gmax gw gl last hd mmax m : member_ok lossy gmax gw gl last hd mmax m -> hd <= w_head (mb_win m).
Proof. intros M. pose proof (mo_head _ _ _ _ _ _ _ _ M) as H. destruct (mb_pc m); lia. Qed.

(** The group's window changes under a member. *)
Lemma member_frame lossy gmax gw gl last hd mmax m gw' gl' : member_ok lossy gmax gw gl last hd mmax m -> stable gw gl gw' gl' -> w_head gw' <= hd ->
  (forall id t, mb_pc m = PWait id t false -> w_head gw' < t) -> member_ok lossy gmax gw' gl' last hd mmax m.
Proof.
  intros M S H Hs. pose proof (mo_hd_le _ _ _ _ _ _ _ _ M) as Hd. destruct M as [(live & R & C) M2 M3 M4 M5 M6]. constructor; auto.
  exists live. split; [exact R|]. eapply corr_stable; eauto.
Qed.
Lemma member_wake lossy gmax gw gl last hd mmax m gw' gl' : member_ok lossy gmax gw gl last hd mmax m -> stable gw gl gw' gl' -> w_head gw' <= hd ->
  member_ok lossy gmax gw' gl' last hd mmax (wake m).
Proof.
  intros M S H. destruct (mb_pc m) eqn:E; unfold wake; rewrite E; try (apply (member_frame lossy gmax gw gl); auto; rewrite E; discriminate).
  destruct M as [M1 M2 M3 M4 M5 M6]. rewrite E in *. apply (member_frame lossy gmax gw gl); auto; [|cbn [set_pc mb_pc]; discriminate].
  constructor; cbn [set_pc mb_win mb_pc mb_pending]; auto. discriminate.
Qed.
(** A flush is posted to a member. *)
Lemma member_post lossy gmax gw gl last hd mmax m t : member_ok lossy gmax gw gl last hd mmax m -> last <= t < 2 ^ 64 -> 0 <= t ->
  member_ok lossy gmax gw gl t hd mmax (post t m).
Proof.
  intros [M1 M2 M3 M4 M5 M6] H H0. constructor; cbn [post mb_win mb_pc mb_pending]; auto.
  - destruct (mb_pc m); auto. destruct M3 as (A & B & C & D). split; [exact A|]. split; [exact B|]. split; [exact C|]. intro L. specialize (D L). lia.
  - apply Forall_app. split; [exact M5|]. constructor; [lia|constructor].
  - intros _. right. exists t. split; [apply in_or_app; right; now left|lia].
Qed.
Lemma member_post_stop lossy gmax gw gl last hd mmax m : member_ok lossy gmax gw gl last hd mmax m -> member_ok lossy gmax gw gl last hd mmax (post u64_max m).
Proof.
  intros [M1 M2 M3 M4 M5 M6]. constructor; cbn [post mb_win mb_pc mb_pending]; auto.
  - apply Forall_app. split; [exact M5|]. constructor; [unfold u64_max; lia|constructor].
  - intro L. destruct (M6 L) as [A|(t & A & B)]; [now left|right]. exists t. split; [apply in_or_app; now left|exact B].
Qed.

(** Replacing one member. *)
Lemma ginv_set lossy gmax maxs g mon gl i m m' mmax hd : ginv lossy gmax maxs g mon gl -> nth_error (g_members g) i = Some m ->
  nth_error maxs i = Some mmax -> nth_error (g_heads g) i = Some hd -> member_ok lossy gmax (g_win g) gl (g_last g) hd mmax m' ->
  ginv lossy gmax maxs (set_member g i m') mon gl.
Proof.
  intros [I1 I2 I3 I4 I5 I6 I7 I8] Hm Hx Hh M'. constructor; cbn [set_member g_win g_heads g_last g_lossy g_members]; auto.
  - rewrite upd_length. exact I3.
  - intros j mj mx h Hj Hjx Hjh. rewrite nth_upd in Hj. destruct (Nat.eqb_spec j i) as [->|N]; [|eauto].
    destruct (_ <? _)%nat; [|discriminate]. injection Hj as <-. rewrite Hx in Hjx. injection Hjx as <-. rewrite Hh in Hjh. injection Hjh as <-. exact M'.
Qed.

Lemma member_data lossy gmax maxs g mon gl i m : ginv lossy gmax maxs g mon gl -> nth_error (g_members g) i = Some m ->
  exists mmax hd, nth_error maxs i = Some mmax /\ nth_error (g_heads g) i = Some hd /\ (0 < mmax <= gmax)%nat /\ w_head (g_win g) <= hd /\
    member_ok lossy gmax (g_win g) gl (g_last g) hd mmax m.
Proof.
  intros G Hm. destruct (gi_len _ _ _ _ _ _ G) as [L1 L2]. assert (i < length maxs)%nat by (rewrite <- L2; apply nth_error_Some; congruence).
  destruct (nth_error maxs i) as [mx|] eqn:E1; [|apply nth_error_None in E1; lia]. destruct (nth_error (g_heads g) i) as [hd|] eqn:E2; [|apply nth_error_None in E2; lia].
  exists mx, hd. split; [reflexivity|]. split; [reflexivity|]. split.
  - pose proof (gi_max _ _ _ _ _ _ G) as F. rewrite Forall_forall in F. apply F. eapply nth_error_In; eauto.
  - split; [|eapply gi_members; eauto]. destruct (gi_min _ _ _ _ _ _ G) as [_ F]. rewrite Forall_forall in F. apply F. eapply nth_error_In; eauto.
Qed.

(** What a step guarantees: no fault; the invariant; the monitor accepts. *)
Definition chunk_events (l : list gev) : list wev := flat_map (fun x => match x with GChunk e => [e] | GTouch _ id c => [EExtra id c] end) l.
Definition step_ok lossy gmax maxs mon (r : gres) : Prop :=
  match r with
  | Blocked => True
  | Fault => False
  | Ok g' e => exists mon' gl', cmon_run (Z.of_nat gmax) mon (chunk_events e) = Some mon' /\ ginv lossy gmax maxs g' mon' gl'
  end.
Lemma chunk_events_map l : chunk_events (map GChunk l) = l.
Proof. unfold chunk_events. induction l as [|e l IH]; [reflexivity|]. cbn [map flat_map app]. now rewrite IH. Qed.
Lemma step_ok_silent lossy gmax maxs mon gl g' : ginv lossy gmax maxs g' mon gl -> step_ok lossy gmax maxs mon (Ok g' []).
Proof. intro G. exists mon, gl. split; [reflexivity|exact G]. Qed.

Lemma report_two e k h : reported e = [h] -> report_then e k = Some (PReport h k).
Proof. intro H. unfold report_then. now rewrite H. Qed.

Lemma take_chunk_ok lossy gmax maxs g mon gl i m mmax hd id alloc : ginv lossy gmax maxs g mon gl -> nth_error (g_members g) i = Some m ->
  nth_error maxs i = Some mmax -> nth_error (g_heads g) i = Some hd -> hd = w_head (mb_win m) -> alloc_ok mmax m id ->
  w_tail (mb_win m) - w_head (g_win g) < Z.of_nat gmax -> step_ok lossy gmax maxs mon (take_chunk g i m id alloc).
Proof.
  intros G Hm Hx Hh Hd [[A1 A2] A3] Hin. destruct (member_data _ _ _ _ _ _ _ _ G Hm) as (mx & h' & X1 & X2 & X3 & X4 & M).
  rewrite Hx in X1. injection X1 as <-. rewrite Hh in X2. injection X2 as <-.
  destruct (mo_win _ _ _ _ _ _ _ _ M) as (live & R & C). pose proof (rp_range _ _ _ R) as (R1 & R2 & R3).
  pose proof (gi_win _ _ _ _ _ _ G) as Gw. pose proof (zlen_nonneg live).
  assert (Hid : 0 <= w_tail (mb_win m) < 2 ^ 63) by lia.
  destruct (J_get_chunk gmax mon (g_win g) gl (w_tail (mb_win m)) alloc Gw Hid) as (w' & e & mon' & gl' & o & F & Mo & J' & S' & _ & Gx).
  destruct (get_chunk_inside gmax mon (g_win g) gl (w_tail (mb_win m)) alloc w' e o Gw Hid Hin F) as (Eh & Er & _).
  destruct (Gx ltac:(lia)) as [G1 G2]. clear Gx.
  unfold take_chunk. rewrite F, Er. destruct (gc_store_rep mmax (mb_win m) live o R ltac:(unfold zlen in *; lia) ltac:(lia)) as (mw & Fs & Rs & Hsh & Hst). rewrite Fs.
  exists mon', gl'. rewrite chunk_events_map. split; [exact Mo|].
  set (g1 := {| g_win := w'; g_heads := g_heads g; g_last := g_last g; g_lossy := g_lossy g; g_members := g_members g |}).
  assert (I1 : ginv lossy gmax maxs g1 mon' gl').
  { destruct G as [I1 I2 I3 I4 I5 I6 I7 I8]. constructor; cbn [g1 g_win g_heads g_last g_lossy g_members]; auto.
    - rewrite Eh. exact I6.
    - intros j mj mx h Hj Hjx Hjh. assert (Hle : w_head w' <= h).
      { rewrite Eh. destruct I6 as [_ I6]. rewrite Forall_forall in I6. apply I6. eapply nth_error_In; eauto. }
      apply (member_frame lossy gmax (g_win g) gl); eauto. rewrite Eh. intros id0 t0 X. exact (mo_sleep _ _ _ _ _ _ _ _ (I8 _ _ _ _ Hj Hjx Hjh) _ _ X). }
  change (ginv lossy gmax maxs (set_member g1 i (set_win m mw (PLoop id))) mon' gl').
  apply (ginv_set _ _ _ g1 _ _ i m _ mmax hd); auto.
  destruct M as [M1 M2 M3 M4 M5 M6]. constructor; cbn [set_win mb_win mb_pc mb_pending g1 g_win g_last]; auto.
  - exists (live ++ [o]). split; [exact Rs|]. intros k x Hk. rewrite Hsh. destruct (Nat.lt_ge_cases k (length live)) as [L|L].
    + rewrite nth_error_app1 in Hk by exact L. revert Hk. rewrite <- Hsh. revert k x L.
      assert (C' : corr w' gl' (mb_win m) live) by (eapply (corr_stable _ _ _ _ _ _ hd); eauto; lia).
      intros k x L Hk. rewrite Hsh. exact (C' k x Hk).
    + rewrite nth_error_app2 in Hk by exact L. destruct (k - length live)%nat eqn:Ek; [|now destruct n]. cbn [nth_error] in Hk. injection Hk as <-.
      assert (k = length live) by lia. subst k. unfold zlen in R2. rewrite <- R2. split; [lia|]. now symmetry.
  - congruence.
  - unfold loop_ok. cbn [set_win mb_win]. lia.
  - discriminate.
  - intro L. rewrite Hsh. exact (M6 L).
Qed.

Lemma post_ok lossy gmax maxs g mon gl t : ginv lossy gmax maxs g mon gl -> g_last g < t < 2 ^ 64 ->
  ginv lossy gmax maxs {| g_win := g_win g; g_heads := g_heads g; g_last := t; g_lossy := g_lossy g; g_members := map (post t) (g_members g) |} mon gl.
Proof.
  intros [I1 I2 I3 I4 I5 I6 I7 I8] H. constructor; cbn [g_win g_heads g_last g_lossy g_members]; auto.
  - rewrite map_length. exact I3.
  - lia.
  - intros j mj mx h Hj Hjx Hjh. rewrite nth_error_map in Hj. destruct (nth_error (g_members g) j) as [m0|] eqn:E; [|discriminate].
    injection Hj as <-. apply (member_post _ _ _ _ (g_last g)); [eauto|lia|lia].
Qed.

Lemma group_get_ok lossy gmax maxs g mon gl i m id alloc : ginv lossy gmax maxs g mon gl -> nth_error (g_members g) i = Some m ->
  mb_pc m = PAlloc id -> step_ok lossy gmax maxs mon (group_get g i m id alloc).
Proof.
  intros G Hm Hpc. destruct (member_data _ _ _ _ _ _ _ _ G Hm) as (mmax & hd & X1 & X2 & X3 & X4 & M).
  pose proof (mo_head _ _ _ _ _ _ _ _ M) as Hd. pose proof (mo_pc _ _ _ _ _ _ _ _ M) as Hp. rewrite Hpc in Hd, Hp. pose proof Hp as [[A1 A2] A3].
  destruct (mo_win _ _ _ _ _ _ _ _ M) as (live & R & C). pose proof (rp_range _ _ _ R) as (R1 & R2 & R3). pose proof (zlen_nonneg live).
  pose proof (gi_win _ _ _ _ _ _ G) as Gw. pose proof (rp_max _ _ _ (j_rep _ _ _ _ (proj1 Gw))) as [Q1 Q2].
  pose proof (rp_range _ _ _ (j_rep _ _ _ _ (proj1 Gw))) as (Q3 & Q4 & Q5).
  assert (H64 : 2 ^ 64 = 2 ^ 63 + 2 ^ 63) by reflexivity.
  unfold group_get. unfold w_max. rewrite (rp_len _ _ _ (j_rep _ _ _ _ (proj1 Gw))). destruct (Z.leb_spec (w_head (g_win g)) (w_tail (mb_win m))); [|lia].
  rewrite u64_small by lia. destruct (Z.leb_spec (Z.of_nat gmax) (w_tail (mb_win m) - w_head (g_win g))) as [L|L].
  - rewrite u64_small by lia. set (target := w_tail (mb_win m) - (Z.of_nat gmax - 1)) in *.
    destruct (Z.ltb_spec (w_head (g_win g)) target) as [Lt|Lt]; [|unfold target in Lt; lia].
    assert (Hle : target <= w_head (mb_win m)) by (unfold target; lia).
    destruct (g_lossy g && (g_last g <? target)) eqn:Ep.
    + apply andb_true_iff in Ep as [Ep1 Ep2]. apply Z.ltb_lt in Ep2. pose proof (post_ok _ _ _ _ _ _ target G ltac:(lia)) as G'.
      apply (step_ok_silent _ _ _ _ gl). eapply (ginv_set _ _ _ _ _ _ i (post target m) _ mmax hd); [exact G'| |exact X1|exact X2|].
      * cbn [g_members]. rewrite nth_error_map, Hm. reflexivity.
      * cbn [g_win g_last]. assert (M' : member_ok lossy gmax (g_win g) gl target hd mmax (post target m)) by (apply (member_post _ _ _ _ (g_last g)); [exact M|lia|lia]).
        destruct M' as [M1 M2 M3 M4 M5 M6]. constructor; cbn [set_pc post mb_win mb_pc mb_pending] in *; auto.
        -- split; [exact Hp|]. split; [reflexivity|]. split; [lia|]. intros _. lia.
        -- intros id0 t0 [= _ <-]. exact Lt.
    + apply (step_ok_silent _ _ _ _ gl). apply (ginv_set _ _ _ _ _ _ i m _ mmax hd); try assumption.
      { destruct G; now constructor. }
      cbn [g_win g_last]. destruct M as [M1 M2 M3 M4 M5 M6]. constructor; cbn [set_pc mb_win mb_pc mb_pending] in *; auto.
      -- split; [exact Hp|]. split; [reflexivity|]. split; [lia|]. intro Hl. rewrite (gi_lossy _ _ _ _ _ _ G), Hl in Ep. cbn [andb] in Ep. apply Z.ltb_ge in Ep. exact Ep.
      -- intros id0 t0 [= _ <-]. exact Lt.
  - apply (take_chunk_ok _ _ _ _ _ gl i m mmax hd); auto; lia.
Qed.

(** :212-230 for a member with a report due. *)
Lemma stream_head_updated_ok lossy gmax maxs g mon gl i m h k : ginv lossy gmax maxs g mon gl -> nth_error (g_members g) i = Some m ->
  mb_pc m = PReport h k -> step_ok lossy gmax maxs mon
    match stream_head_updated g i h with
    | None => Fault
    | Some (g', e) => match nth_error (g_members g') i with None => Fault | Some m' => Ok (set_member g' i (set_pc m' (of_kont k))) e end
    end.
Proof.
  intros G Hm Hpc. destruct (member_data _ _ _ _ _ _ _ _ G Hm) as (mmax & hd & X1 & X2 & X3 & X4 & M).
  pose proof (mo_head _ _ _ _ _ _ _ _ M) as Hd. pose proof (mo_pc _ _ _ _ _ _ _ _ M) as Hp. rewrite Hpc in Hd, Hp. destruct Hd as [Hd1 Hd2].
  pose proof (gi_win _ _ _ _ _ _ G) as Gw. pose proof (rp_range _ _ _ (j_rep _ _ _ _ (proj1 Gw))) as (Q3 & Q4 & Q5).
  destruct (mo_win _ _ _ _ _ _ _ _ M) as (live & R & C). pose proof (rp_range _ _ _ R) as (R1 & R2 & R3). pose proof (zlen_nonneg live).
  destruct (gi_len _ _ _ _ _ _ G) as [L1 L2]. assert (Hi : (i < length maxs)%nat) by (rewrite <- L2; apply nth_error_Some; congruence).
  destruct (gi_min _ _ _ _ _ _ G) as [Gm1 Gm2].
  assert (Hfin : member_ok lossy gmax (g_win g) gl (g_last g) h mmax (set_pc m (of_kont k))).
  { destruct M as [M1 M2 M3 M4 M5 M6]. constructor; cbn [set_pc mb_win mb_pc mb_pending]; auto.
    - destruct k; cbn [of_kont]; exact Hd1.
    - destruct k; cbn [of_kont kont_ok] in *; exact Hp.
    - destruct k; discriminate. }
  unfold stream_head_updated. rewrite X2. destruct (Z.ltb_spec hd h); [|lia]. set (heads' := upd (g_heads g) i h) in *.
  assert (Hh' : nth_error heads' i = Some h) by (apply upd_same; lia).
  assert (Hne : heads' <> []) by (intro E; rewrite E in Hh'; now destruct i).
  assert (Hge : Forall (fun y => w_head (g_win g) <= y) heads') by (apply Forall_upd; [exact Gm2|lia]).
  destruct (Z.eqb_spec (w_head (g_win g)) hd) as [E|E].
  - assert (Hmin : 0 <= min_list heads' < 2 ^ 64).
    { assert (Hx : Forall (fun y => 0 <= y < 2 ^ 64) heads').
      { apply Forall_upd; [|lia]. rewrite Forall_forall. intros y Hy. apply In_nth_error in Hy as [j Hj].
        assert (j < length maxs)%nat by (rewrite <- L1; apply nth_error_Some; congruence).
        destruct (nth_error (g_members g) j) as [mj|] eqn:Ej; [|apply nth_error_None in Ej; lia].
        destruct (member_data _ _ _ _ _ _ _ _ G Ej) as (mxj & hj & Y1 & Y2 & Y3 & Y4 & Mj). rewrite Hj in Y2. injection Y2 as <-.
        pose proof (mo_hd_le _ _ _ _ _ _ _ _ Mj). destruct (mo_win _ _ _ _ _ _ _ _ Mj) as (lj & Rj & _). pose proof (rp_range _ _ _ Rj) as (? & ? & ?). pose proof (zlen_nonneg lj). lia. }
      rewrite Forall_forall in Hx. apply Hx. now apply min_list_in. }
    destruct (J_flush_until gmax (Z.of_nat gmax) mon (g_win g) gl (min_list heads') Gw Hmin) as (w' & e & mon' & gl' & F & Mo & J' & Hh & S').
    rewrite F. assert (Hgl : w_head (g_win g) <= min_list heads') by (rewrite Forall_forall in Hge; apply Hge; now apply min_list_in).
    assert (Ehead : w_head w' = min_list heads') by lia. pose proof (min_list_le heads') as Hml.
    assert (Hot : forall j y, nth_error heads' j = Some y -> w_head w' <= y).
    { intros j y Hj. rewrite Ehead. rewrite Forall_forall in Hml. apply Hml. eapply nth_error_In; eauto. }
    set (ms := match reported e with [] => g_members g | _ => map wake (g_members g) end).
    assert (Hms : forall j mj mx y, nth_error ms j = Some mj -> nth_error maxs j = Some mx -> nth_error (g_heads g) j = Some y -> nth_error heads' j = Some y ->
       member_ok lossy gmax w' gl' (g_last g) y mx mj).
    { intros j mj mx y Hj Hjx Hjy Hjy'. specialize (Hot _ _ Hjy'). unfold ms in Hj. destruct (flush_until_cases _ _ _ _ F) as [[Fc1 Fc2]|(Fc1 & -> & ->)].
      - destruct (reported e) as [|z zs]; [congruence|]. rewrite nth_error_map in Hj. destruct (nth_error (g_members g) j) as [m0|] eqn:Ej; [|discriminate].
        injection Hj as <-. apply (member_wake _ _ (g_win g) gl); [eapply gi_members; eauto|exact S'|exact Hot].
      - cbn [reported flat_map] in Hj. apply (member_frame _ _ (g_win g) gl); [eapply gi_members; eauto|exact S'|exact Hot|].
        intros id0 t0 X. eapply mo_sleep; [eapply gi_members; eauto|exact X]. }
    cbn [g_members]. assert (Hmi : nth_error ms i = Some m).
    { unfold ms. destruct (reported e); [exact Hm|]. rewrite nth_error_map, Hm. cbn [option_map]. unfold wake. now rewrite Hpc. }
    fold ms. rewrite Hmi. exists mon', gl'. rewrite chunk_events_map. split; [exact Mo|].
    assert (Lms : length ms = length maxs) by (unfold ms; destruct (reported e); [exact L2|now rewrite map_length]).
    destruct G as [I1 I2 I3 I4 I5 I6 I7 I8]. constructor; cbn [set_member g_win g_heads g_last g_lossy g_members]; auto.
    + unfold heads'. rewrite !upd_length. split; [exact L1|exact Lms].
    + rewrite Ehead. split; [now apply min_list_in|exact Hml].
    + intros j mj mx y Hj Hjx Hjy. rewrite nth_upd in Hj. destruct (Nat.eqb_spec j i) as [->|N].
      * destruct (_ <? _)%nat; [|discriminate]. injection Hj as <-. rewrite X1 in Hjx. injection Hjx as <-. rewrite Hh' in Hjy. injection Hjy as <-.
        apply (member_frame _ _ (g_win g) gl); [exact Hfin|exact S'|eapply Hot; exact Hh'|]. cbn [set_pc mb_pc]. destruct k; discriminate.
      * apply (Hms j); auto. unfold heads' in Hjy. now rewrite upd_other in Hjy by exact N.
  - cbn [g_members]. rewrite Hm. apply (step_ok_silent _ _ _ _ gl).
    destruct G as [I1 I2 I3 I4 I5 I6 I7 I8]. constructor; cbn [set_member g_win g_heads g_last g_lossy g_members]; auto.
    + unfold heads'. rewrite !upd_length. auto.
    + split; [|exact Hge]. apply In_nth_error in Gm1 as [j Hj]. destruct (Nat.eq_dec j i) as [->|N]; [congruence|].
      apply (nth_error_In _ j). unfold heads'. now rewrite upd_other.
    + intros j mj mx y Hj Hjx Hjy. rewrite nth_upd in Hj. destruct (Nat.eqb_spec j i) as [->|N].
      * destruct (_ <? _)%nat; [|discriminate]. injection Hj as <-. rewrite X1 in Hjx. injection Hjx as <-. rewrite Hh' in Hjy. injection Hjy as <-. exact Hfin.
      * unfold heads' in Hjy. rewrite upd_other in Hjy by exact N. eauto.
Qed.

Lemma remove_at_split {A} (l : list A) j x : nth_error l j = Some x -> exists l1 l2, l = l1 ++ x :: l2 /\ remove_at j l = l1 ++ l2.
Proof.
  intro H. destruct (nth_error_split _ _ H) as (l1 & l2 & -> & <-). exists l1, l2. split; [reflexivity|]. unfold remove_at.
  rewrite firstn_app, Nat.sub_diag, firstn_all, firstn_O, app_nil_r. f_equal. rewrite skipn_app, skipn_all2 by lia.
  replace (S (length l1) - length l1)%nat with 1%nat by lia. reflexivity.
Qed.

Lemma g_step_ok lossy gmax maxs g mon gl l : ginv lossy gmax maxs g mon gl -> step_ok lossy gmax maxs mon (g_step g l).
Proof.
  intro G. destruct l as [i id|i alloc|i j|i| |i|i id]; cbn [g_step].
  - destruct (nth_error (g_members g) i) as [m|] eqn:Hm; [|exact Logic.I]. destruct (mb_pc m) eqn:Hpc; try exact Logic.I.
    destruct (Z.leb_spec 0 id); [|exact Logic.I]. destruct (Z.ltb_spec id (2 ^ 63)); [|exact Logic.I]. cbn [andb].
    destruct (Z.leb_spec (w_head (mb_win m)) id) as [L|L]; [|now apply (step_ok_silent _ _ _ _ gl)].
    destruct (member_data _ _ _ _ _ _ _ _ G Hm) as (mmax & hd & X1 & X2 & X3 & X4 & M). destruct M as [(live & R & C) M2 M3 M4 M5 M6]. rewrite Hpc in *.
    destruct (gc_jump_rep mmax (mb_win m) live id R ltac:(lia)) as (w' & live' & e & F & R' & B1 & B2 & B3 & Cs). rewrite F.
    destruct Cs as [(-> & -> & ->)|(Er & Hlt & ->)].
    + cbn [report_then reported flat_map of_kont]. apply (step_ok_silent _ _ _ _ gl). apply (ginv_set _ _ _ g _ _ i m _ mmax hd); auto.
      constructor; cbn [set_win mb_win mb_pc mb_pending]; auto; [eauto|split; cbn [set_win mb_win]; lia|discriminate].
    + rewrite (report_two _ _ _ Er). apply (step_ok_silent _ _ _ _ gl). apply (ginv_set _ _ _ g _ _ i m _ mmax hd); auto.
      constructor; cbn [set_win mb_win mb_pc mb_pending kont_ok]; auto.
      * exists []. split; [exact R'|apply corr_nil].
      * split; [reflexivity|lia].
      * split; cbn [set_win mb_win]; lia.
      * discriminate.
      * intro Hl. destruct (M6 Hl) as [Y|Y]; [left; lia|now right].
  - destruct (nth_error (g_members g) i) as [m|] eqn:Hm; [|exact Logic.I]. unfold member_step. destruct (mb_pc m) as [|id|h k|id|id t [|]] eqn:Hpc; try exact Logic.I.
    + destruct (member_data _ _ _ _ _ _ _ _ G Hm) as (mmax & hd & X1 & X2 & X3 & X4 & M). destruct M as [(live & R & C) M2 M3 M4 M5 M6]. rewrite Hpc in *. destruct M3 as [M3a M3b].
      pose proof (rp_range _ _ _ R) as (R1 & R2 & R3). unfold zlen in R2.
      destruct (Z.leb_spec (w_tail (mb_win m)) id) as [L|L].
      * destruct (gc_room_rep mmax (mb_win m) live R) as (w' & live' & e & F & R' & B1 & B2 & Cs). rewrite F.
        pose proof (rp_range _ _ _ R') as (R1' & R2' & R3'). unfold zlen in R2'.
        destruct Cs as [(-> & -> & ->)|(Er & Hlt & Hl' & Hne)].
        -- cbn [report_then reported flat_map of_kont]. apply (step_ok_silent _ _ _ _ gl). apply (ginv_set _ _ _ g _ _ i m _ mmax hd); auto.
           constructor; cbn [set_win mb_win mb_pc mb_pending]; auto; [eauto|split; cbn [set_win mb_win]; lia|discriminate].
        -- rewrite (report_two _ _ _ Er). apply (step_ok_silent _ _ _ _ gl). apply (ginv_set _ _ _ g _ _ i m _ mmax hd); auto.
           constructor; cbn [set_win mb_win mb_pc mb_pending kont_ok]; auto.
           ++ exists live'. split; [exact R'|]. rewrite Hl'. apply (corr_skip _ _ (mb_win m)); [exact C|exact Hlt].
           ++ split; [reflexivity|lia].
           ++ split; cbn [set_win mb_win]; lia.
           ++ discriminate.
           ++ intro Hl. destruct (M6 Hl) as [Y|Y]; [left; lia|now right].
      * rewrite (chunk_pos_rep mmax (mb_win m) live id R) by lia. apply (step_ok_silent _ _ _ _ gl). apply (ginv_set _ _ _ g _ _ i m _ mmax hd); auto.
        constructor; cbn [set_pc mb_win mb_pc mb_pending]; auto; [eauto|discriminate].
    + apply (stream_head_updated_ok _ _ _ _ _ gl i m h k); auto.
    + apply (group_get_ok _ _ _ _ _ gl); auto.
    + destruct (member_data _ _ _ _ _ _ _ _ G Hm) as (mmax & hd & X1 & X2 & X3 & X4 & M). pose proof (mo_pc _ _ _ _ _ _ _ _ M) as Hp. pose proof (mo_head _ _ _ _ _ _ _ _ M) as Hd.
      rewrite Hpc in Hp, Hd. destruct Hp as (P1 & P2 & P3 & P4). destruct (Z.ltb_spec (w_head (g_win g)) t) as [L|L].
      * apply (step_ok_silent _ _ _ _ gl). apply (ginv_set _ _ _ g _ _ i m _ mmax hd); auto. destruct M as [M1 M2 M3 M4 M5 M6].
        constructor; cbn [set_pc mb_win mb_pc mb_pending]; auto. intros id0 t0 [= _ <-]. exact L.
      * apply (take_chunk_ok _ _ _ _ _ gl i m mmax hd); auto; lia.
  - destruct (nth_error (g_members g) i) as [m|] eqn:Hm; [|exact Logic.I]. destruct (mb_pc m) eqn:Hpc; try exact Logic.I.
    destruct (nth_error (mb_pending m) j) as [t|] eqn:Hj; [|exact Logic.I].
    destruct (member_data _ _ _ _ _ _ _ _ G Hm) as (mmax & hd & X1 & X2 & X3 & X4 & M). destruct M as [(live & R & C) M2 M3 M4 M5 M6]. rewrite Hpc in *.
    pose proof (rp_range _ _ _ R) as (R1 & R2 & R3).
    assert (Ht : 0 <= t < 2 ^ 64) by (rewrite Forall_forall in M5; apply M5; eapply nth_error_In; eauto).
    destruct (remove_at_split _ _ _ Hj) as (l1 & l2 & Hl1 & Hl2).
    assert (Hrem : forall x, In x (remove_at j (mb_pending m)) -> In x (mb_pending m)).
    { intros x. rewrite Hl2, Hl1, !in_app_iff. cbn [In]. tauto. }
    assert (Hin : forall x, In x (mb_pending m) -> x = t \/ In x (remove_at j (mb_pending m))).
    { intros x. rewrite Hl2, Hl1, !in_app_iff. cbn [In]. intuition auto. }
    assert (Hpend : Forall (fun t0 => 0 <= t0 < 2 ^ 64) (remove_at j (mb_pending m))).
    { rewrite Forall_forall in *. intros x Hx. apply M5. now apply Hrem. }
    destruct (Z.ltb_spec (w_head (mb_win m)) t) as [L|L].
    + destruct (flush_until_rep mmax (mb_win m) live t R Ht L) as (k & w' & live' & F & R' & Hh & Hk & Hle & Hl & Cs). rewrite F.
      assert (Er : reported (rlist (firstn k live) ++ [EHead t]) = [t]) by now rewrite reported_app, reported_rlist.
      rewrite (report_two _ _ _ Er). apply (step_ok_silent _ _ _ _ gl). apply (ginv_set _ _ _ g _ _ i m _ mmax hd); auto.
      constructor; cbn [mb_win mb_pc mb_pending kont_ok]; auto.
      * exists live'. split; [exact R'|]. destruct Cs as [[Cs _]|(_ & Cs & _)]; [subst live'; apply (corr_skip _ _ (mb_win m)); [exact C|lia]|].
        subst live' k. rewrite skipn_all. apply corr_nil.
      * split; [congruence|lia].
      * discriminate.
      * intro Hlo. rewrite Hh. destruct (M6 Hlo) as [Y|(x & Y1 & Y2)]; [left; lia|]. destruct (Hin x Y1) as [->|Y3]; [now left|right]. exists x. auto.
    + unfold flush_until. destruct (Z.ltb_spec (w_head (mb_win m)) t); [lia|]. cbn [report_then reported flat_map of_kont]. apply (step_ok_silent _ _ _ _ gl).
      apply (ginv_set _ _ _ g _ _ i m _ mmax hd); auto. constructor; cbn [mb_win mb_pc mb_pending]; try exact M5; try exact Hpend; [eauto|exact M2|exact Logic.I|discriminate|].
      intro Hlo. destruct (M6 Hlo) as [Y|(x & Y1 & Y2)]; [left; lia|]. destruct (Hin x Y1) as [->|Y3]; [left; lia|right]. exists x. auto.
  - destruct (nth_error (g_members g) i) as [m|] eqn:Hm; [|exact Logic.I]. destruct (mb_pc m) eqn:Hpc; try exact Logic.I.
    destruct (member_data _ _ _ _ _ _ _ _ G Hm) as (mmax & hd & X1 & X2 & X3 & X4 & M). destruct M as [(live & R & C) M2 M3 M4 M5 M6]. rewrite Hpc in *.
    pose proof (rp_range _ _ _ R) as (R1 & R2 & R3). pose proof (zlen_nonneg live).
    destruct (flush_all_rep mmax (mb_win m) live u64_max R ltac:(unfold u64_max; lia)) as (w' & F & R' & Hh & Ht). rewrite F.
    destruct (Z.eqb_spec u64_max (w_head (mb_win m))) as [E|E].
    + rewrite app_nil_r. unfold report_then. rewrite reported_rlist. cbn [of_kont]. apply (step_ok_silent _ _ _ _ gl). apply (ginv_set _ _ _ g _ _ i m _ mmax hd); auto.
      constructor; cbn [set_win mb_win mb_pc mb_pending]; try exact M5; [exists []; split; [exact R'|apply corr_nil]|congruence|exact Logic.I|discriminate|].
      intro Hl. rewrite Hh, E. exact (M6 Hl).
    + assert (Er : reported (rlist live ++ [EHead u64_max]) = [u64_max]) by now rewrite reported_app, reported_rlist.
      rewrite (report_two _ _ _ Er). apply (step_ok_silent _ _ _ _ gl). apply (ginv_set _ _ _ g _ _ i m _ mmax hd); auto.
      constructor; cbn [set_win mb_win mb_pc mb_pending kont_ok]; auto.
      * exists []. split; [exact R'|apply corr_nil].
      * split; [congruence|]. unfold u64_max in *. lia.
      * discriminate.
      * intro Hl. rewrite Hh. destruct (M6 Hl) as [Y|Y]; [left; unfold u64_max in *; lia|now right].
  - apply (step_ok_silent _ _ _ _ gl). destruct G as [I1 I2 I3 I4 I5 I6 I7 I8]. constructor; cbn [g_win g_heads g_last g_lossy g_members]; auto.
    + rewrite map_length. exact I3.
    + intros q mq mx y Hq Hqx Hqy. rewrite nth_error_map in Hq. destruct (nth_error (g_members g) q) as [m0|] eqn:Eq; [|discriminate]. injection Hq as <-.
      apply member_post_stop. eauto.
  - destruct (nth_error (g_members g) i) as [m|] eqn:Hm; [|exact Logic.I]. apply (step_ok_silent _ _ _ _ gl).
    destruct (member_data _ _ _ _ _ _ _ _ G Hm) as (mmax & hd & X1 & X2 & X3 & X4 & M). apply (ginv_set _ _ _ g _ _ i m _ mmax hd); auto.
    apply (member_wake _ _ (g_win g) gl); [exact M|apply stable_refl|exact X4].
  - destruct (nth_error (g_members g) i) as [m|] eqn:Hm; [|exact Logic.I].
    destruct (mb_pc m) eqn:Hpc; try exact Logic.I. destruct (get_const (mb_win m) id) as [[c|]|] eqn:Hc; try exact Logic.I.
    destruct (Z.leb_spec 0 id); [|exact Logic.I]. destruct (Z.ltb_spec id (2 ^ 63)); [|exact Logic.I]. cbn [andb].
    exists mon, gl. split; [|exact G]. destruct (member_data _ _ _ _ _ _ _ _ G Hm) as (mmax & hd & X1 & X2 & X3 & X4 & M). destruct (mo_win _ _ _ _ _ _ _ _ M) as (live & R & C).
    pose proof (mo_hd_le _ _ _ _ _ _ _ _ M) as Hd.
    rewrite (get_const_rep mmax _ live) in Hc by (auto; lia). injection Hc as Hc. destruct (Z.leb_spec (w_head (mb_win m)) id) as [L1|L1]; [|discriminate]. cbn [andb] in Hc.
    destruct (Z.ltb_spec id (w_tail (mb_win m))) as [L2|L2]; [|discriminate].
    destruct (nth_error live (Z.to_nat (id - w_head (mb_win m)))) as [o|] eqn:En; [|apply nth_error_None in En; now rewrite nth_overflow in Hc by exact En].
    rewrite (nth_error_nth _ _ None En) in Hc. subst o. destruct (C _ _ En) as [C1 C2].
    replace (w_head (mb_win m) + Z.of_nat (Z.to_nat (id - w_head (mb_win m))) - w_head (g_win g)) with (id - w_head (g_win g)) in C2 by lia.
    cbn [chunk_events flat_map app cmon_run cmon_step].
    assert (Ho : is_out mon id c = true).
    { unfold is_out. apply existsb_exists. exists (id, c). split; [|cbn [fst snd]; rewrite !Z.eqb_refl; reflexivity].
      rewrite (j_out _ _ _ _ (proj1 (gi_win _ _ _ _ _ _ G))). apply outs_in. exists (Z.to_nat (id - w_head (g_win g))). split; [|lia].
      destruct (nth_error gl (Z.to_nat (id - w_head (g_win g)))) as [o|] eqn:E; [f_equal; rewrite <- C2; symmetry; now apply nth_error_nth|].
      apply nth_error_None in E. rewrite nth_overflow in C2 by exact E. discriminate. }
    now rewrite Ho.
Qed.

Lemma ginv_new lossy gmax maxs : Z.of_nat gmax < 2 ^ 63 -> Forall (fun x => (0 < x <= gmax)%nat) maxs -> maxs <> [] -> ginv lossy gmax maxs (group_new lossy gmax maxs) cmon0 [].
Proof.
  intros H1 H2 H3. assert (Hg : (0 < gmax)%nat) by (destruct maxs as [|x maxs]; [congruence|]; apply Forall_cons_iff in H2; lia).
  constructor; cbn [group_new g_win g_heads g_last g_lossy g_members]; auto.
  - now apply JB_new.
  - rewrite repeat_length, map_length. auto.
  - cbn [window_new w_head]. destruct maxs as [|x maxs]; [congruence|]. split; [now left|]. apply Forall_forall. intros y Hy. apply repeat_spec in Hy. lia.
  - lia.
  - intros i m mmax hd Hm Hx Hh. rewrite nth_error_map, Hx in Hm. injection Hm as <-.
    assert (hd = 0) by (apply nth_error_In, repeat_spec in Hh; exact Hh). subst hd.
    assert (Hr : (0 < mmax <= gmax)%nat) by (rewrite Forall_forall in H2; apply H2; eapply nth_error_In; eauto).
    constructor; cbn [member_new mb_win mb_pc mb_pending]; auto.
    + exists []. split; [apply rep_new; lia|apply corr_nil].
    + discriminate.
    + intros _. left. cbn [window_new w_head]. lia.
Qed.

Lemma ginv_reach lossy gmax maxs g tr : Z.of_nat gmax < 2 ^ 63 -> Forall (fun x => (0 < x <= gmax)%nat) maxs -> maxs <> [] ->
  g_reach (group_new lossy gmax maxs) g tr -> exists mon gl, cmon_run (Z.of_nat gmax) cmon0 (chunk_events tr) = Some mon /\ ginv lossy gmax maxs g mon gl.
Proof.
  intros H1 H2 H3. induction 1 as [|g tr l g' e _ (mon & gl & M & G) S].
  - exists cmon0, []. split; [reflexivity|now apply ginv_new].
  - pose proof (g_step_ok _ _ _ _ _ _ l G) as K. rewrite S in K. destruct K as (mon' & gl' & M' & G'). exists mon', gl'. split; [|exact G'].
    unfold chunk_events in *. rewrite flat_map_app, cmon_run_app, M. exact M'.
Qed.
