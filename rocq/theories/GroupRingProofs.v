(** Invariants of a chunk stream group with rings. *)
From Coq Require Import ZArith List Bool Lia Arith.
From Verif Require Import Base ConcBase ChunkModel ChunkSpec ChunkProofs GroupModel GroupProofs GroupProps GroupPoolModel GroupPoolProofs GroupPoolProps GroupRingModel GroupRingSpec.
Import ListNotations.
Open Scope Z_scope.

(** ** What the group does in a step *)
Fixpoint zr (a : Z) (n : nat) : list Z := match n with O => [] | S n => a :: zr (a + 1) n end.
Lemma zr_length : forall n a, length (zr a n) = n.
Proof. induction n as [|n IH]; intro a; cbn [zr length]; auto. Qed.
Lemma zr_in : forall n a x, In x (zr a n) -> a <= x < a + Z.of_nat n.
Proof. induction n as [|n IH]; intros a x H; [destruct H|]. cbn [zr] in H. destruct H as [->|H]; [lia|]. apply IH in H. lia. Qed.
Lemma zr_nodup : forall n a, NoDup (zr a n).
Proof. induction n as [|n IH]; intro a; cbn [zr]; constructor; auto. intro H. apply zr_in in H. lia. Qed.
Definition alloc_events (b : Z -> option Z) (l : list Z) : list wev := map (fun j => EAlloc j (b j)) l.

Lemma gc_loop_shape max id alloc : id < 2 ^ 63 -> forall n m w live w' e, JB max m w live -> id - w_head w < Z.of_nat max ->
  gc_loop n w id alloc = Some (w', e) -> e = alloc_events alloc (zr (w_tail w) (Z.to_nat (id + 1 - w_tail w))).
Proof.
  intro Hid. induction n as [|n IH]; intros m w live w' e Hj Hin F; cbn [gc_loop] in F.
  - destruct (Z.leb_spec (w_tail w) id); [discriminate|]. injection F as <- <-. replace (Z.to_nat (id + 1 - w_tail w)) with O by lia. reflexivity.
  - destruct (Z.leb_spec (w_tail w) id) as [L|L]; [|injection F as <- <-; replace (Z.to_nat (id + 1 - w_tail w)) with O by lia; reflexivity].
    pose proof (rp_range _ _ _ (j_rep _ _ _ _ (proj1 Hj))) as (R1 & R2 & R3). pose proof (zlen_nonneg live).
    assert (E : gc_room w = Some (w, [])).
    { unfold gc_room, w_max. rewrite (rp_len _ _ _ (j_rep _ _ _ _ (proj1 Hj))), u64_small by lia. destruct (Z.eqb_spec (w_tail w - w_head w) (Z.of_nat max)); [lia|reflexivity]. }
    rewrite E in F. destruct (J_store max m w live (alloc (w_tail w)) Hj ltac:(unfold zlen in *; lia) ltac:(lia)) as (w2 & m2 & F2 & M2 & J2 & Hh2 & Ht2 & _). rewrite F2 in F.
    destruct (gc_loop n w2 id alloc) as [[w3 e3]|] eqn:E3; [|discriminate]. injection F as <- <-.
    rewrite (IH m2 w2 _ w3 e3 J2 ltac:(lia) E3), Ht2. replace (Z.to_nat (id + 1 - w_tail w)) with (S (Z.to_nat (id + 1 - (w_tail w + 1)))) by lia. reflexivity.
Qed.
Lemma get_chunk_shape max m w live id alloc w' e o : JB max m w live -> 0 <= id < 2 ^ 63 -> w_head w <= id -> id - w_head w < Z.of_nat max ->
  get_chunk w id alloc = Some (w', e, o) -> e = alloc_events alloc (zr (w_tail w) (Z.to_nat (id + 1 - w_tail w))).
Proof.
  intros Hj Hid Hle Hin F. unfold get_chunk in F. destruct (Z.leb_spec 0 id); [|lia]. destruct (Z.ltb_spec id (2 ^ 63)); [|lia]. cbn [andb] in F.
  destruct (Z.leb_spec (w_head w) id) as [L|L]; [|lia].
  pose proof (rp_range _ _ _ (j_rep _ _ _ _ (proj1 Hj))) as (R1 & R2 & R3). pose proof (zlen_nonneg live).
  assert (E : gc_jump w id = Some (w, [])).
  { unfold gc_jump, w_max. rewrite (rp_len _ _ _ (j_rep _ _ _ _ (proj1 Hj))). destruct (Z.leb_spec (w_tail w) id); [|reflexivity]. cbn [andb].
    assert (2 ^ 64 = 2 ^ 63 + 2 ^ 63) by reflexivity. rewrite u64_small by lia. destruct (Z.leb_spec (Z.of_nat max) (id - w_tail w)); [lia|reflexivity]. }
  rewrite E in F. destruct (gc_loop (w_max w) w id alloc) as [[w2 e2]|] eqn:E2; [|discriminate]. destruct (nth_error (w_slots w2) (chunk_pos w2 id)); [|discriminate].
  injection F as <- <- <-. cbn [app]. eapply (gc_loop_shape max id alloc); eauto; lia.
Qed.

Definition at_alloc (m : member) : Prop := exists id, mb_pc m = PAlloc id \/ exists t, mb_pc m = PWait id t true.
Definition goes (gmax : nat) (g : group) (m : member) : Prop := w_tail (mb_win m) - w_head (g_win g) < Z.of_nat gmax.
Definition wanted (g : group) (m : member) : list Z := zr (w_tail (g_win g)) (Z.to_nat (w_tail (mb_win m) + 1 - w_tail (g_win g))).

Lemma step_not_fault lossy gmax maxs g mon gl l : ginv lossy gmax maxs g mon gl -> g_step g l <> Fault.
Proof. intros G F. pose proof (g_step_ok _ _ _ _ _ _ l G) as K. now rewrite F in K. Qed.
Lemma take_not_blocked g i m id al : take_chunk g i m id al <> Blocked.
Proof. unfold take_chunk. destruct (get_chunk _ _ _) as [[[? ?] ?]|]; [|discriminate]. destruct (existsb _ _); [discriminate|]. destruct (gc_store _ _); discriminate. Qed.

Section Group.
Variables (lossy : bool) (gmax : nat) (maxs : list nat) (g : group) (mon : cmon) (gl : list (option Z)).
Hypothesis G : ginv lossy gmax maxs g mon gl.

Lemma alloc_facts i m : nth_error (g_members g) i = Some m -> at_alloc m ->
  0 <= w_head (g_win g) <= w_tail (mb_win m) /\ w_tail (mb_win m) < 2 ^ 63 /\ w_max (g_win g) = gmax /\ (0 < gmax)%nat /\ Z.of_nat gmax < 2 ^ 63.
Proof.
  intros Hm (id & A). destruct (member_data _ _ _ _ _ _ _ _ G Hm) as (mmax & hd & X1 & X2 & X3 & X4 & Mo). pose proof (mo_pc _ _ _ _ _ _ _ _ Mo) as P. pose proof (mo_hd_le _ _ _ _ _ _ _ _ Mo) as Hd.
  destruct (mo_win _ _ _ _ _ _ _ _ Mo) as (live & R & _). pose proof (rp_range _ _ _ R) as (R1 & R2 & R3). pose proof (zlen_nonneg live).
  pose proof (j_rep _ _ _ _ (proj1 (gi_win _ _ _ _ _ _ G))) as Rg. pose proof (rp_range _ _ _ Rg) as (Q1 & Q2 & Q3).
  assert (B : alloc_ok mmax m id) by (destruct A as [A|(t & A)]; rewrite A in P; [exact P|exact (proj1 P)]). destruct B as [[B1 B2] B3].
  split; [lia|]. split; [lia|]. split; [exact (rp_len _ _ _ Rg)|]. exact (rp_max _ _ _ Rg).
Qed.
Lemma take_shape g1 i m id b g' e : g_win g1 = g_win g -> 0 <= w_head (g_win g) <= w_tail (mb_win m) -> w_tail (mb_win m) < 2 ^ 63 -> goes gmax g m -> take_chunk g1 i m id b = Ok g' e -> e = map GChunk (alloc_events b (wanted g m)).
Proof.
  intros Ew H1 H2 Hg S. unfold take_chunk in S. rewrite Ew in S. destruct (get_chunk _ _ _) as [[[w' x] o]|] eqn:F; [|discriminate]. destruct (existsb is_ready x); [discriminate|]. destruct (gc_store _ _); [|discriminate]. injection S as <- <-. f_equal.
  eapply get_chunk_shape; [exact (gi_win _ _ _ _ _ _ G)| | |exact Hg|exact F]; lia.
Qed.
Lemma alloc_goes i m b : nth_error (g_members g) i = Some m -> at_alloc m -> goes gmax g m -> exists g', g_step g (LStep i b) = Ok g' (map GChunk (alloc_events b (wanted g m))).
Proof.
  intros Hm A Hg. destruct (alloc_facts i m Hm A) as (H1 & H2 & H3 & H4 & H5). pose proof (step_not_fault _ _ _ _ _ _ (LStep i b) G) as NF. unfold goes in Hg.
  destruct (member_data _ _ _ _ _ _ _ _ G Hm) as (mmax & hd & X1 & X2 & X3 & X4 & Mo). pose proof (mo_pc _ _ _ _ _ _ _ _ Mo) as P.
  cbn [g_step] in *. rewrite Hm in *. unfold member_step in *. destruct A as (id & [A|(t & A)]); rewrite A in *.
  - unfold group_get in *. rewrite H3 in *. destruct (Z.leb_spec (w_head (g_win g)) (w_tail (mb_win m))); [|lia]. rewrite u64_small in * by lia. destruct (Z.leb_spec (Z.of_nat gmax) (w_tail (mb_win m) - w_head (g_win g))); [lia|].
    destruct (take_chunk g i m id b) as [| |g' e] eqn:S; [now apply take_not_blocked in S|congruence|]. exists g'. f_equal. eapply (take_shape g); eauto.
  - destruct P as (P1 & P2 & _). destruct (Z.ltb_spec (w_head (g_win g)) t); [lia|].
    destruct (take_chunk g i m id b) as [| |g' e] eqn:S; [now apply take_not_blocked in S|congruence|]. exists g'. f_equal. eapply (take_shape g); eauto.
Qed.
Lemma alloc_waits i m b : nth_error (g_members g) i = Some m -> at_alloc m -> ~ goes gmax g m -> exists g', g_step g (LStep i b) = Ok g' [] /\ g_win g' = g_win g.
Proof.
  intros Hm A Hg. destruct (alloc_facts i m Hm A) as (H1 & H2 & H3 & H4 & H5). unfold goes in Hg. assert (H64 : 2 ^ 64 = 2 ^ 63 + 2 ^ 63) by reflexivity.
  destruct (member_data _ _ _ _ _ _ _ _ G Hm) as (mmax & hd & X1 & X2 & X3 & X4 & Mo). pose proof (mo_pc _ _ _ _ _ _ _ _ Mo) as P.
  cbn [g_step] in *. rewrite Hm in *. unfold member_step in *. destruct A as (id & [A|(t & A)]); rewrite A in *.
  - unfold group_get in *. rewrite H3 in *. destruct (Z.leb_spec (w_head (g_win g)) (w_tail (mb_win m))); [|lia]. rewrite !u64_small in * by lia. destruct (Z.leb_spec (Z.of_nat gmax) (w_tail (mb_win m) - w_head (g_win g))); [|lia].
    destruct (Z.ltb_spec (w_head (g_win g)) (w_tail (mb_win m) - (Z.of_nat gmax - 1))); [|lia]. eexists. split; [reflexivity|]. reflexivity.
  - destruct P as (P1 & P2 & _). destruct (Z.ltb_spec (w_head (g_win g)) t); [|lia]. eexists. split; reflexivity.
Qed.
Lemma alloc_ids_events b l : alloc_ids_of (map GChunk (alloc_events b l)) = l.
Proof. unfold alloc_ids_of, alloc_events. induction l as [|x l IH]; [reflexivity|]. cbn [map flat_map app]. now rewrite IH. Qed.
Lemma needs_goes i m : nth_error (g_members g) i = Some m -> at_alloc m -> goes gmax g m -> needs g i = wanted g m.
Proof. intros Hm A Hg. unfold needs. destruct (alloc_goes i m (fun _ => None) Hm A Hg) as (g' & ->). apply alloc_ids_events. Qed.
Lemma needs_waits i m : nth_error (g_members g) i = Some m -> at_alloc m -> ~ goes gmax g m -> needs g i = [].
Proof. intros Hm A Hg. unfold needs. destruct (alloc_waits i m (fun _ => None) Hm A Hg) as (g' & -> & _). reflexivity. Qed.
(** The chunks that the group holds, and those it is about to get, fit its window. *)
Lemma room i m : nth_error (g_members g) i = Some m -> at_alloc m -> goes gmax g m -> (length (cm_out mon) + length (wanted g m) <= gmax)%nat \/ wanted g m = [].
Proof.
  intros Hm A Hg. destruct (alloc_facts i m Hm A) as (H1 & H2 & H3 & H4 & H5). unfold goes, wanted in *. rewrite zr_length. pose proof (gi_win _ _ _ _ _ _ G) as [Jw _]. pose proof (rp_range _ _ _ (j_rep _ _ _ _ Jw)) as (R1 & R2 & R3).
  rewrite (j_out _ _ _ _ Jw). assert (L : forall l h, (length (outs h l) <= length l)%nat).
  { induction l as [|o l IH]; intro h; cbn [outs length]; [lia|]. specialize (IH (h + 1)). rewrite app_length. destruct o; cbn [length]; lia. }
  specialize (L gl (w_head (g_win g))). unfold zlen in R2. destruct (Z.leb_spec (w_tail (g_win g)) (w_tail (mb_win m))); [left; lia|right].
  replace (Z.to_nat (w_tail (mb_win m) + 1 - w_tail (g_win g))) with O by lia. reflexivity.
Qed.
End Group.

(** *** Steps that do not need the group's mutex *)
Definition mutexless (g : group) (l : glabel) : Prop :=
  match l with
  | LStep i _ => exists m id, nth_error (g_members g) i = Some m /\ mb_pc m = PLoop id
  | _ => True
  end.
Definition who_of (l : glabel) : option nat := match l with LGet i _ | LStep i _ | LFlush i _ | LStop i => Some i | _ => None end.
Lemma at_alloc_wake m : at_alloc m -> at_alloc (wake m).
Proof. intros (id & [H|(t & H)]); exists id; unfold wake; rewrite H; cbn [set_pc mb_pc]; rewrite ?H; eauto. Qed.
Lemma wake_win m : mb_win (wake m) = mb_win m.
Proof. unfold wake. now destruct (mb_pc m). Qed.
Lemma quiet_step g l g' e : mutexless g l -> g_step g l = Ok g' e ->
  g_win g' = g_win g /\ allocs (chunk_events e) = [] /\ readies (chunk_events e) = [] /\
  forall j m, nth_error (g_members g) j = Some m -> who_of l <> Some j -> exists m', nth_error (g_members g') j = Some m' /\ mb_win m' = mb_win m /\ (mb_pc m' = mb_pc m \/ mb_pc m' = mb_pc (wake m)).
Proof.
  intros Q S.
  assert (U : forall i x, (forall j m, nth_error (g_members g) j = Some m -> Some i <> Some j -> exists m', nth_error (upd (g_members g) i x) j = Some m' /\ mb_win m' = mb_win m /\ (mb_pc m' = mb_pc m \/ mb_pc m' = mb_pc (wake m)))).
  { intros i x j m Hj N. rewrite nth_upd. destruct (Nat.eqb_spec j i) as [->|_]; [congruence|]. exists m. auto. }
  destruct l as [i id|i alloc|i j|i| |i|i id]; cbn [g_step who_of mutexless] in *.
  - destruct (nth_error (g_members g) i) as [m|] eqn:Hm; [|discriminate]. destruct (mb_pc m); try discriminate. destruct (_ && _); [|discriminate]. destruct (_ <=? id).
    + destruct (gc_jump _ _) as [[w' x]|]; [|discriminate]. destruct (report_then _ _) as [p|]; [|discriminate]. injection S as <- <-. repeat split; auto. cbn [set_member g_members]. apply U.
    + injection S as <- <-. repeat split; auto. intros j mj Hj _. exists mj. auto.
  - destruct Q as (m & id & Hm & Hpc). rewrite Hm in S. unfold member_step in S. rewrite Hpc in S. destruct (_ <=? id).
    + destruct (gc_room _) as [[w' x]|]; [|discriminate]. destruct (report_then _ _) as [p|]; [|discriminate]. injection S as <- <-. repeat split; auto. cbn [set_member g_members]. apply U.
    + destruct (nth_error (w_slots _) _); [|discriminate]. injection S as <- <-. repeat split; auto. cbn [set_member g_members]. apply U.
  - destruct (nth_error (g_members g) i) as [m|] eqn:Hm; [|discriminate]. destruct (mb_pc m); try discriminate. destruct (nth_error (mb_pending m) j); [|discriminate]. destruct (flush_until _ _) as [[w' x]|]; [|discriminate].
    destruct (report_then _ _) as [p|]; [|discriminate]. injection S as <- <-. repeat split; auto. cbn [set_member g_members]. apply U.
  - destruct (nth_error (g_members g) i) as [m|] eqn:Hm; [|discriminate]. destruct (mb_pc m); try discriminate. destruct (flush_all _ _) as [[w' x]|]; [|discriminate].
    destruct (report_then _ _) as [p|]; [|discriminate]. injection S as <- <-. repeat split; auto. cbn [set_member g_members]. apply U.
  - injection S as <- <-. repeat split; auto. intros j m Hj _. cbn [g_members]. rewrite nth_error_map, Hj. eexists. split; [reflexivity|]. cbn. auto.
  - destruct (nth_error (g_members g) i) as [m|] eqn:Hm; [|discriminate]. injection S as <- <-. repeat split; auto. intros j mj Hj _. cbn [set_member g_members]. rewrite nth_upd. destruct (Nat.eqb_spec j i) as [->|_].
    + assert (i < length (g_members g))%nat by (apply nth_error_Some; congruence). destruct (Nat.ltb_spec i (length (g_members g))); [|lia]. replace mj with m by congruence. eexists. split; [reflexivity|]. rewrite wake_win. auto.
    + exists mj. auto.
  - destruct (nth_error (g_members g) i) as [m|] eqn:Hm; [|discriminate]. destruct (mb_pc m); try discriminate. destruct (get_const _ _) as [[c|]|]; try discriminate. destruct (_ && _); [|discriminate]. injection S as <- <-.
    repeat split; auto. intros j mj Hj _. exists mj. auto.
Qed.
(** stream_head_updated allocates nothing. *)
Lemma report_step g i h k m g' e b : nth_error (g_members g) i = Some m -> mb_pc m = PReport h k -> g_step g (LStep i b) = Ok g' e -> allocs (chunk_events e) = [].
Proof.
  intros Hm Hpc S. cbn [g_step] in S. rewrite Hm in S. unfold member_step in S. rewrite Hpc in S. destruct (stream_head_updated g i h) as [[g1 e1]|] eqn:E; [|discriminate]. destruct (nth_error (g_members g1) i); [|discriminate]. injection S as _ <-.
  unfold stream_head_updated in E. destruct (nth_error (g_heads g) i) as [old|]; [|discriminate]. destruct (old <? h); [|discriminate]. destruct (_ =? old); [|injection E as _ <-; reflexivity].
  destruct (flush_until _ _) as [[w' x]|] eqn:F; [|discriminate]. injection E as _ <-. rewrite chunk_events_map.
  assert (L : forall n b w w' x, flush_loop n b w = Some (w', x) -> allocs x = []).
  { clear. induction n as [|n IH]; intros b w w' x F; cbn [flush_loop] in F; (destruct (_ && _); [|injection F as <- <-; reflexivity]); [discriminate|].
    destruct (flush_head w) as [[w1 e1]|] eqn:E1; [|discriminate]. destruct (flush_loop n b w1) as [[w2 e2]|] eqn:E2; [|discriminate]. injection F as <- <-. rewrite allocs_app, (IH _ _ _ _ E2), app_nil_r.
    unfold flush_head in E1. destruct (_ <? _); [|discriminate]. destruct (nth_error _ _) as [[c|]|]; [| |discriminate]; injection E1 as <- <-; reflexivity. }
  unfold flush_until in F. destruct (_ <? _); [|injection F as _ <-; reflexivity]. destruct (flush_loop _ _ _) as [[w1 e1]|] eqn:E1; [|discriminate]. injection F as _ <-. rewrite allocs_app, (L _ _ _ _ _ E1). reflexivity.
Qed.

(** ** The steps by cases *)
Inductive rcase (capd capf : nat) (s : rgst) : rlabel -> rgst -> list rgev -> Prop :=
| c_less l gl g e : mutexless (x_g s) gl -> (forall i, who_of gl = Some i -> holding s i = false) -> (forall i, gl <> LStop i) ->
    (forall i id, gl = LGet i id -> is_done s i = false) -> g_step (x_g s) gl = Ok g e ->
    match l with RGo i => gl = LStep i (fun _ => None) | RFlush i j => gl = LFlush i j /\ unlocked s i = true | RGet i id => gl = LGet i id | RTouch i id => gl = LTouch i id | RSpur i => gl = LSpurious i | _ => False end ->
    rcase capd capf s l (upd_g s g (x_hold s)) (map EvG e)
| c_done l i p g e : unlocked s i = true -> is_done s i = false -> g_step (x_g s) (LStop i) = Ok g e ->
    (l = RNet i /\ p = x_stop s) \/ (l = RStopGo /\ x_stop s = SMem i true /\ p = SIn i true) -> rcase capd capf s l (upd_done s g i p) (map EvG e)
| c_flush i g e : unlocked s i = true -> x_stop s = SMem i false -> g_step (x_g s) (LStop i) = Ok g e ->
    rcase capd capf s RStopGo (upd_stop (upd_g s g (x_hold s)) (x_dstop s) (x_fstop s) (SIn i false)) (map EvG e)
| c_post g e : x_stop s = SPost -> g_lossy (x_g s) = false -> g_step (x_g s) LPostStop = Ok g e ->
    rcase capd capf s RStopGo (upd_stop (upd_g s g (x_hold s)) (x_dstop s) (x_fstop s) (SMem 0 false)) (map EvG e)
| c_report i m h k g e : x_hold s = HFree -> nth_error (g_members (x_g s)) i = Some m -> mb_pc m = PReport h k -> g_step (x_g s) (LStep i (fun _ => None)) = Ok g e ->
    rcase capd capf s (RGo i) (upd_g s g (after i e)) (map EvG e)
| c_wait i m g e : x_hold s = HFree -> nth_error (g_members (x_g s)) i = Some m -> at_alloc m -> needs (x_g s) i = [] -> g_step (x_g s) (LStep i (fun _ => None)) = Ok g e ->
    rcase capd capf s (RGo i) (upd_g s g HFree) (map EvG e)
| c_begin i m : x_hold s = HFree -> nth_error (g_members (x_g s)) i = Some m -> at_alloc m -> needs (x_g s) i <> [] ->
    rcase capd capf s (RGo i) (upd_g s (x_g s) (HAlloc i (needs (x_g s) i) [])) []
| c_chunk i m acc g e : x_hold s = HAlloc i [] acc -> nth_error (g_members (x_g s)) i = Some m -> g_step (x_g s) (LStep i (lookup acc)) = Ok g e ->
    rcase capd capf s (RGo i) (upd_g s g HFree) (map EvG e)
| c_remove i : quiet_m s i = true -> is_done s i = true -> is_removed s i = false -> rcase capd capf s (RRemove i) (upd_removed s i) []
| c_pop i id ids acc v f : x_hold s = HAlloc i (id :: ids) acc -> x_free s = v :: f -> rcase capd capf s RPop (upd_free s (HAlloc i ids (acc ++ [(id, Some v)])) f (x_mine s)) []
| c_null i id ids acc : x_hold s = HAlloc i (id :: ids) acc -> x_free s = [] -> x_fstop s = true -> rcase capd capf s RPop (upd_free s (HAlloc i ids (acc ++ [(id, None)])) [] (x_mine s)) []
| c_bury i c out : x_hold s = HPush i (c :: out) -> x_dstop s = true ->
    rcase capd capf s RPush (upd_data s (match out with [] => HFree | _ => HPush i out end) (x_data s) (x_mine s) (c :: x_grave s)) [EvBuried c]
| c_send i c out : x_hold s = HPush i (c :: out) -> x_dstop s = false -> (length (x_data s) < capd)%nat ->
    rcase capd capf s RPush (upd_data s (match out with [] => HFree | _ => HPush i out end) (x_data s ++ [c]) (x_mine s) (x_grave s)) [EvSent c]
| c_stop : x_stop s = SNo -> rcase capd capf s RStop (upd_stop s true (x_fstop s) SRing) [EvStopCall]
| c_ring : x_stop s = SRing -> rcase capd capf s RStopGo (upd_stop s (x_dstop s) true SPost) []
| c_lossy : x_stop s = SPost -> g_lossy (x_g s) = true -> rcase capd capf s RStopGo (upd_stop s (x_dstop s) (x_fstop s) (SMem 0 false)) []
| c_skip i : x_stop s = SMem i true -> (i < length (g_members (x_g s)))%nat -> unlocked s i = true -> is_done s i = true -> rcase capd capf s RStopGo (upd_stop s (x_dstop s) (x_fstop s) (SMem (S i) false)) []
| c_fin i b : x_stop s = SMem i b -> (length (g_members (x_g s)) <= i)%nat -> rcase capd capf s RStopGo (upd_fin s) (map EvFreed (x_grave s) ++ [EvStopRet])
| c_second i : x_stop s = SIn i false -> quiet_m s i = true -> rcase capd capf s RStopGo (upd_stop s (x_dstop s) (x_fstop s) (SMem i true)) []
| c_next i : x_stop s = SIn i true -> quiet_m s i = true -> is_removed s i = true -> rcase capd capf s RStopGo (upd_stop s (x_dstop s) (x_fstop s) (SMem (S i) false)) []
| c_add v : mem_z v (x_mine s) = true -> x_fstop s = false -> (length (x_free s) < capf)%nat -> rcase capd capf s (UAdd v) (upd_free s (x_hold s) (x_free s ++ [v]) (remove1 v (x_mine s))) []
| c_full v : mem_z v (x_mine s) = true -> rcase capd capf s (UAdd v) s []
| c_take c d : x_data s = c :: d -> rcase capd capf s UTake (upd_data s (x_hold s) d (c :: x_mine s) (x_grave s)) [EvGot c]
| c_ext b : rcase capd capf s (UExt b) (upd_stop s (x_dstop s || b) (x_fstop s || negb b) (x_stop s)) [EvExt].

Lemma unlocked_quiet s i : unlocked s i = true -> quiet_m s i = true /\ (is_done s i = true -> is_removed s i = true) /\ forall b, x_stop s <> SIn i b.
Proof.
  unfold unlocked. intro H. apply andb_true_iff in H as [H H3]. apply andb_true_iff in H as [H1 H2]. split; [exact H1|]. split.
  - intro D. rewrite D in H2. now destruct (is_removed s i).
  - intros b E. rewrite E in H3. rewrite Nat.eqb_refl in H3. discriminate.
Qed.
Lemma quiet_facts s i : quiet_m s i = true <-> exists m, nth_error (g_members (x_g s)) i = Some m /\ mb_pc m = PIdle /\ holding s i = false.
Proof.
  unfold quiet_m. split.
  - intro H. destruct (nth_error (g_members (x_g s)) i) as [m|]; [|discriminate]. exists m. destruct (mb_pc m) eqn:E; try discriminate. apply negb_true_iff in H. auto.
  - intros (m & -> & -> & ->). reflexivity.
Qed.
Lemma rcases capd capf s l s' ev : rstep capd capf s l = ROk s' ev -> rcase capd capf s l s' ev.
Proof.
  assert (D : forall i gl k, g_do s i gl k = ROk s' ev -> exists g e, g_step (x_g s) gl = Ok g e /\ s' = k g e /\ ev = map EvG e).
  { intros i gl k H. unfold g_do in H. destruct (g_step (x_g s) gl) as [| |g e]; try discriminate. injection H as <- <-. eauto. }
  assert (Q : forall i, unlocked s i = true -> holding s i = false) by (intros i U; apply unlocked_quiet in U as (U & _); apply quiet_facts in U as (m & _ & _ & U); exact U).
  destruct l as [i id|i id|i|i j|i|i| | |i| | |v| |b]; cbn [rstep]; intro S.
  - destruct (unlocked s i) eqn:U; [|discriminate]. destruct (is_done s i) eqn:Dn; [discriminate|]. cbn [andb negb] in S. destruct (D _ _ _ S) as (g & e & E & -> & ->).
    eapply (c_less capd capf s (RGet i id) (LGet i id)); [exact I| | | |exact E|reflexivity]; [intros j [= <-]; auto|discriminate|]. intros j id0 [= <- <-]. exact Dn.
  - destruct (unlocked s i) eqn:U; [|discriminate]. destruct (D _ _ _ S) as (g & e & E & -> & ->). eapply (c_less capd capf s (RTouch i id) (LTouch i id)); [exact I| | | |exact E|reflexivity]; discriminate.
  - unfold go in S. destruct (nth_error (g_members (x_g s)) i) as [m|] eqn:Hm; [|discriminate].
    assert (Al : at_alloc m -> match x_hold s with
          | HFree => match needs (x_g s) i with
                     | [] => g_do s i (LStep i (fun _ => None)) (fun g _ => upd_g s g HFree)
                     | ids => ROk (upd_g s (x_g s) (HAlloc i ids [])) []
                     end
          | HAlloc j [] acc => if Nat.eqb j i then g_do s i (LStep i (lookup acc)) (fun g _ => upd_g s g HFree) else RBlocked
          | _ => RBlocked
          end = ROk s' ev -> rcase capd capf s (RGo i) s' ev).
    { intros A S1. destruct (x_hold s) as [|j ids acc|] eqn:Eh; [| |discriminate].
      - destruct (needs (x_g s) i) as [|x l] eqn:En; [destruct (D _ _ _ S1) as (g & e & E & -> & ->); eapply c_wait; eauto|]. injection S1 as <- <-. rewrite <- En. eapply c_begin; eauto. congruence.
      - destruct ids; [|discriminate]. destruct (Nat.eqb_spec j i) as [->|]; [|discriminate]. destruct (D _ _ _ S1) as (g & e & E & -> & ->). eapply c_chunk; eauto. }
    destruct (mb_pc m) as [|id|h k|id|id t [|]] eqn:Hpc; try discriminate.
    + destruct (holding s i) eqn:Hh; [discriminate|]. destruct (D _ _ _ S) as (g & e & E & -> & ->).
      eapply (c_less capd capf s (RGo i) (LStep i (fun _ => None))); [exists m, id; auto| | | |exact E|reflexivity]; [intros j [= <-]; auto|discriminate|discriminate].
    + destruct (x_hold s) eqn:Eh; try discriminate. destruct (D _ _ _ S) as (g & e & E & -> & ->). eapply c_report; eauto.
    + apply Al; [|exact S]. exists id. auto.
    + apply Al; [|exact S]. exists id. right. eauto.
    + assert (B : forall b, g_step (x_g s) (LStep i b) = Blocked) by (intro b; cbn [g_step]; rewrite Hm; unfold member_step; now rewrite Hpc).
      unfold g_do, needs in S. rewrite B in S. destruct (x_hold s) as [|j ids acc|]; try discriminate. destruct ids; [|discriminate]. rewrite B in S. destruct (Nat.eqb j i); discriminate.
  - destruct (unlocked s i) eqn:U; [|discriminate]. destruct (D _ _ _ S) as (g & e & E & -> & ->). eapply (c_less capd capf s (RFlush i j) (LFlush i j)); [exact I| | | |exact E|split; [reflexivity|exact U]]; [intros k [= <-]; auto|discriminate|discriminate].
  - destruct (unlocked s i) eqn:U; [|discriminate]. destruct (is_done s i) eqn:Dn; [discriminate|]. cbn [andb negb] in S. destruct (D _ _ _ S) as (g & e & E & -> & ->). eapply c_done; eauto.
  - destruct (quiet_m s i) eqn:U; [|discriminate]. destruct (is_done s i) eqn:Dn; [|discriminate]. destruct (is_removed s i) eqn:Rm; [discriminate|]. injection S as <- <-. now apply c_remove.
  - destruct (x_hold s) as [|i [|id ids] acc|] eqn:Eh; try discriminate. destruct (x_free s) as [|v f] eqn:Ef.
    + destruct (x_fstop s) eqn:Es; [|discriminate]. injection S as <- <-. eapply c_null; eauto.
    + injection S as <- <-. eapply c_pop; eauto.
  - destruct (x_hold s) as [| |i [|c out]] eqn:Eh; try discriminate. destruct (x_dstop s) eqn:Es; [injection S as <- <-; now apply c_bury|]. destruct (Nat.ltb_spec (length (x_data s)) capd); [|discriminate]. injection S as <- <-. now apply c_send.
  - destruct (D _ _ _ S) as (g & e & E & -> & ->). eapply (c_less capd capf s (RSpur i) (LSpurious i)); [exact I| | | |exact E|reflexivity]; discriminate.
  - destruct (x_stop s) eqn:Es; try discriminate. injection S as <- <-. now apply c_stop.
  - unfold stop_go in S. destruct (x_stop s) as [| | |i b|i b] eqn:Es; [discriminate|injection S as <- <-; now apply c_ring| | |].
    + destruct (g_lossy (x_g s)) eqn:El; [injection S as <- <-; now apply c_lossy|]. destruct (D _ _ _ S) as (g & e & E & -> & ->). now apply c_post.
    + destruct (Nat.ltb_spec i (length (g_members (x_g s)))) as [L|L]; [|injection S as <- <-; eapply c_fin; eauto]. destruct (unlocked s i) eqn:U; [|discriminate]. destruct b.
      * destruct (is_done s i) eqn:Dn; [injection S as <- <-; now eapply c_skip|]. destruct (D _ _ _ S) as (g & e & E & -> & ->). eapply c_done; eauto.
      * destruct (D _ _ _ S) as (g & e & E & -> & ->). now apply c_flush.
    + destruct (quiet_m s i) eqn:U; [|discriminate]. destruct b; [destruct (is_removed s i) eqn:Rm; [|discriminate]|]; injection S as <- <-; [now apply c_next|now apply c_second].
  - destruct (mem_z v (x_mine s)) eqn:Em; [|discriminate]. destruct (x_fstop s) eqn:Ef; cbn [negb andb] in S; [injection S as <- <-; now apply c_full|]. destruct (Nat.ltb_spec (length (x_free s)) capf); injection S as <- <-; [now apply c_add|now apply c_full].
  - destruct (x_data s) as [|c d] eqn:Ed; [discriminate|]. injection S as <- <-. now apply c_take.
  - injection S as <- <-. apply c_ext.
Qed.

(** ** Invariants *)
Definition cnt (v : Z) (l : list Z) : nat := count_occ Z.eq_dec l v.
Lemma cnt_app v a b : cnt v (a ++ b) = (cnt v a + cnt v b)%nat.
Proof. apply count_occ_app. Qed.
Lemma cnt_cons v x l : cnt v (x :: l) = ((if Z.eq_dec x v then 1 else 0) + cnt v l)%nat.
Proof. unfold cnt. cbn [count_occ]. destruct (Z.eq_dec x v); reflexivity. Qed.

Lemma gev_g tr e : g_events (tr ++ map EvG e) = g_events tr ++ e.
Proof. unfold g_events. rewrite flat_map_app. f_equal. induction e as [|x e IH]; [reflexivity|]. cbn [map flat_map app]. now rewrite IH. Qed.
Lemma no_others e : sents (map EvG e) = [] /\ burieds (map EvG e) = [] /\ freeds (map EvG e) = [] /\ gots (map EvG e) = [].
Proof. induction e as [|x e IH]; [repeat split|]. exact IH. Qed.
Lemma gev_app a b : g_events (a ++ b) = g_events a ++ g_events b. Proof. apply flat_map_app. Qed.
Lemma sents_app a b : sents (a ++ b) = sents a ++ sents b. Proof. apply flat_map_app. Qed.
Lemma burieds_app a b : burieds (a ++ b) = burieds a ++ burieds b. Proof. apply flat_map_app. Qed.
Lemma freeds_app a b : freeds (a ++ b) = freeds a ++ freeds b. Proof. apply flat_map_app. Qed.
Lemma gots_app a b : gots (a ++ b) = gots a ++ gots b. Proof. apply flat_map_app. Qed.
Lemma freed_ev l : g_events (map EvFreed l ++ [EvStopRet]) = [] /\ sents (map EvFreed l ++ [EvStopRet]) = [] /\ burieds (map EvFreed l ++ [EvStopRet]) = [] /\ gots (map EvFreed l ++ [EvStopRet]) = [] /\ freeds (map EvFreed l ++ [EvStopRet]) = l.
Proof. induction l as [|x l (I1 & I2 & I3 & I4 & I5)]; [repeat split|]. cbn [map app]. repeat split; try assumption. change (freeds (EvFreed x :: map EvFreed l ++ [EvStopRet])) with (x :: freeds (map EvFreed l ++ [EvStopRet])). now rewrite I5. Qed.
Lemma given_app a b : given (a ++ b) = given a ++ given b.
Proof. unfold given, given_ids. now rewrite gev_app, chunk_events_app, allocs_app, map_app. Qed.
Lemma made_app a b : made (a ++ b) = made a ++ made b.
Proof. unfold made. now rewrite gev_app, chunk_events_app, readies_app. Qed.
Lemma given_g e : given (map EvG e) = map snd (allocs (chunk_events e)).
Proof. unfold given, given_ids. change (map EvG e) with ([] ++ map EvG e). now rewrite gev_g. Qed.
Lemma made_g e : made (map EvG e) = readies (chunk_events e).
Proof. unfold made. change (map EvG e) with ([] ++ map EvG e). now rewrite gev_g. Qed.

Section Inv.
Variables (capd capf : nat) (lossy : bool) (gmax : nat) (maxs : list nat) (chunks : list Z).
Hypothesis Gok : group_ok gmax maxs.
Local Notation g0 := (group_new lossy gmax maxs).
Local Notation n := (length maxs).

Definition hold_ok (s : rgst) : Prop :=
  match x_hold s with
  | HFree => True
  | HPush i out => out <> [] /\ (i < n)%nat
  | HAlloc i ids acc => exists m, nth_error (g_members (x_g s)) i = Some m /\ at_alloc m /\ goes gmax (x_g s) m /\ map fst acc ++ ids = wanted (x_g s) m
  end.
Definition stop_ok (s : rgst) : Prop :=
  match x_stop s with
  | SNo => True
  | SRing => x_dstop s = true
  | SPost => x_dstop s = true /\ x_fstop s = true
  | SMem i _ => x_dstop s = true /\ x_fstop s = true /\ (i <= n)%nat /\ forall j, (j < i)%nat -> is_removed s j = true
  | SIn i b => x_dstop s = true /\ x_fstop s = true /\ (i < n)%nat /\ (forall j, (j < i)%nat -> is_removed s j = true) /\ (b = true -> is_done s i = true)
  end.
Definition all_removed (s : rgst) : Prop := forall i, (i < n)%nat -> is_removed s i = true.
Record rinv (tr : list rgev) (s : rgst) : Prop := {
  r_g : g_reach g0 (x_g s) (g_events tr);
  r_hold : hold_ok s;
  r_len : length (x_done s) = n /\ length (x_removed s) = n;
  r_prod : x_prod s = sumw (fun b : bool => if b then 0 else 1)%nat (x_removed s);
  r_done : forall i, is_done s i = true -> exists m, nth_error (g_members (x_g s)) i = Some m /\ w_head (mb_win m) = u64_max;
  r_rem : forall i, is_removed s i = true -> is_done s i = true /\ quiet_m s i = true;
  r_out : made tr = sents tr ++ burieds tr ++ pushing (x_hold s);
  r_sent : sents tr = gots tr ++ x_data s;
  r_bur : x_dstop s = false -> burieds tr = [];
  r_grave : forall v, cnt v (burieds tr) = (cnt v (x_grave s) + cnt v (freeds tr))%nat;
  r_cons : forall v kept, given tr = made tr ++ kept ->
    cnt v chunks = (cnt v (x_free s) + cnt v (x_data s) + cnt v (x_mine s) + cnt v kept + cnt v (held (x_hold s)) + cnt v (x_grave s) + cnt v (freeds tr))%nat;
  r_dstop : x_dstop s = true -> user_stop tr \/ all_removed s;
  r_stop : stop_ok s }.

Lemma reach_ginv g tr : g_reach g0 g tr -> exists mon gl, cmon_run (Z.of_nat gmax) cmon0 (chunk_events tr) = Some mon /\ ginv lossy gmax maxs g mon gl.
Proof. destruct Gok as (H1 & H2 & H3). intro R. exact (ginv_reach lossy gmax maxs g tr H1 H2 H3 R). Qed.
Lemma members_len g tr : g_reach g0 g tr -> length (g_members g) = n.
Proof. intro R. destruct (reach_ginv g tr R) as (mon & gl & _ & G). exact (proj2 (gi_len _ _ _ _ _ _ G)). Qed.
(** What is given is made ready, in order, or kept. *)
Lemma kept_ex tr s : rinv tr s -> exists kept, given tr = made tr ++ kept.
Proof.
  intro R. destruct (reach_ginv _ _ (r_g _ _ R)) as (mon & gl & M & _). pose proof (cmon_handover _ _ _ _ M) as H. exists (map snd (cm_out mon)). exact H.
Qed.

(** A member that is done and idle stays so. *)
Lemma idle_keep g tr l g' e i m : g_reach g0 g tr -> g_step g l = Ok g' e -> nth_error (g_members g) i = Some m -> mb_pc m = PIdle -> w_head (mb_win m) = u64_max ->
  exists m', nth_error (g_members g') i = Some m' /\ mb_pc m' = PIdle /\ w_head (mb_win m') = u64_max.
Proof.
  intros R S Hm Hp Hh. destruct (reach_ginv g tr R) as (mon & gl & _ & G). destruct (head_keep _ _ _ _ _ _ _ _ _ _ _ G S Hm) as (m' & Hm' & Le).
  assert (R' : g_reach g0 g' (tr ++ e)) by (eapply gr_step; eauto). destruct (reach_ginv _ _ R') as (mon' & gl' & _ & G').
  destruct (member_data _ _ _ _ _ _ _ _ G' Hm') as (mmax' & hd' & _ & _ & _ & _ & Mo'). destruct (mo_win _ _ _ _ _ _ _ _ Mo') as (live' & Rp' & _). pose proof (rep_head_max _ _ _ Rp') as Mx.
  exists m'. split; [exact Hm'|]. split; [|unfold u64_max in *; lia].
  destruct (member_data _ _ _ _ _ _ _ _ G Hm) as (mmax & hd & _ & _ & _ & _ & Mo). destruct (mo_win _ _ _ _ _ _ _ _ Mo) as (live & Rp & _).
  assert (Lt : (i < length (g_members g))%nat) by (apply nth_error_Some; congruence).
  assert (O : forall k, actor l = Some k -> i <> k -> mb_pc m' = PIdle).
  { intros k A N. destruct (frame _ _ _ _ _ A S) as (_ & _ & F). destruct (F i m Hm) as (m2 & H2 & F2 & _). rewrite Hm' in H2. injection H2 as <-. now apply F2. }
  destruct l as [k id|k al|k j|k| |k|k id]; cbn [actor] in O.
  - destruct (Nat.eq_dec i k) as [->|N]; [|eapply O; eauto]. cbn [g_step] in S. rewrite Hm, Hp in S. destruct (Z.leb_spec 0 id); [|discriminate]. destruct (Z.ltb_spec id (2 ^ 63)); [|discriminate]. cbn [andb] in S.
    destruct (Z.leb_spec (w_head (mb_win m)) id) as [L|L]; [exfalso; rewrite Hh in L; unfold u64_max in L; lia|]. injection S as <- <-. congruence.
  - destruct (Nat.eq_dec i k) as [->|N]; [|eapply O; eauto]. cbn [g_step] in S. rewrite Hm in S. unfold member_step in S. rewrite Hp in S. discriminate.
  - destruct (Nat.eq_dec i k) as [->|N]; [|eapply O; eauto]. cbn [g_step] in S. rewrite Hm, Hp in S. destruct (nth_error (mb_pending m) j) as [t|] eqn:Hj; [|discriminate].
    assert (Ht : 0 <= t < 2 ^ 64) by (pose proof (mo_pending _ _ _ _ _ _ _ _ Mo) as P; rewrite Forall_forall in P; apply P; eapply nth_error_In; eauto).
    destruct (flush_until (mb_win m) t) as [[w' x]|] eqn:E; [|discriminate]. destruct (flush_until_cases _ _ _ _ E) as [[A _]|(_ & -> & _)]; [exfalso; rewrite Hh in A; unfold u64_max in A; lia|].
    cbn in S. injection S as <- <-. cbn [set_member g_members] in Hm'. rewrite nth_upd, Nat.eqb_refl in Hm'. destruct (Nat.ltb_spec k (length (g_members g))); [|lia]. injection Hm' as <-. reflexivity.
  - destruct (Nat.eq_dec i k) as [->|N]; [|eapply O; eauto]. cbn [g_step] in S. rewrite Hm, Hp in S. pose proof (rp_range _ _ _ Rp) as (R1 & R2 & R3).
    assert (Em : live = []) by (destruct live as [|o live]; [reflexivity|]; exfalso; unfold zlen in R2; cbn [length] in R2; rewrite Hh in R2; unfold u64_max in R2; lia).
    assert (E : flush_all (mb_win m) u64_max = Some (set_range (mb_win m) u64_max, [])).
    { unfold flush_all. assert (We : w_empty (mb_win m) = true) by (unfold w_empty; rewrite R2, Em; change (zlen (@nil (option Z))) with 0; apply Z.eqb_eq; lia).
      replace (flush_loop (w_max (mb_win m)) (2 ^ 64) (mb_win m)) with (Some (mb_win m, @nil wev)) by (destruct (w_max (mb_win m)); cbn [flush_loop]; rewrite We; reflexivity). rewrite Hh, Z.eqb_refl. reflexivity. }
    rewrite E in S. cbn in S. injection S as <- <-. cbn [set_member g_members] in Hm'. rewrite nth_upd, Nat.eqb_refl in Hm'. destruct (Nat.ltb_spec k (length (g_members g))); [|lia]. injection Hm' as <-. reflexivity.
  - cbn [g_step] in S. injection S as <- <-. cbn [g_members] in Hm'. rewrite nth_error_map, Hm in Hm'. injection Hm' as <-. exact Hp.
  - cbn [g_step] in S. destruct (nth_error (g_members g) k) as [mk|] eqn:Hk; [|discriminate]. injection S as <- <-. cbn [set_member g_members] in Hm'. rewrite nth_upd in Hm'. destruct (Nat.eqb_spec i k) as [->|N].
    + destruct (Nat.ltb_spec k (length (g_members g))); [|lia]. injection Hm' as <-. replace mk with m by congruence. unfold wake. now rewrite Hp.
    + congruence.
  - cbn [g_step] in S. destruct (nth_error (g_members g) k) as [mk|] eqn:Hk; [|discriminate]. destruct (mb_pc mk); try discriminate. destruct (get_const _ _) as [[c|]|]; try discriminate. destruct (_ && _); [|discriminate]. injection S as <- <-. congruence.
Qed.
Lemma done_keep g tr l g' e i m : g_reach g0 g tr -> g_step g l = Ok g' e -> nth_error (g_members g) i = Some m -> w_head (mb_win m) = u64_max ->
  exists m', nth_error (g_members g') i = Some m' /\ w_head (mb_win m') = u64_max.
Proof.
  intros R S Hm Hh. destruct (reach_ginv g tr R) as (mon & gl & _ & G). destruct (head_keep _ _ _ _ _ _ _ _ _ _ _ G S Hm) as (m' & Hm' & Le). exists m'. split; [exact Hm'|].
  assert (R' : g_reach g0 g' (tr ++ e)) by (eapply gr_step; eauto). destruct (reach_ginv _ _ R') as (mon' & gl' & _ & G').
  destruct (member_data _ _ _ _ _ _ _ _ G' Hm') as (mmax' & hd' & _ & _ & _ & _ & Mo'). destruct (mo_win _ _ _ _ _ _ _ _ Mo') as (live' & Rp' & _). pose proof (rep_head_max _ _ _ Rp') as Mx. lia.
Qed.
Lemma stop_head g tr i g' e : g_reach g0 g tr -> g_step g (LStop i) = Ok g' e -> exists m', nth_error (g_members g') i = Some m' /\ w_head (mb_win m') = u64_max.
Proof.
  intros R S. destruct (reach_ginv g tr R) as (mon & gl & _ & G). cbn [g_step] in S. destruct (nth_error (g_members g) i) as [m|] eqn:Hm; [|discriminate]. destruct (member_data _ _ _ _ _ _ _ _ G Hm) as (mmax & hd & _ & _ & _ & _ & Mo).
  destruct (mo_win _ _ _ _ _ _ _ _ Mo) as (live & Rp & _). pose proof (rp_range _ _ _ Rp) as (R1 & R2 & R3). destruct (mb_pc m); try discriminate.
  destruct (flush_all_rep mmax (mb_win m) live u64_max Rp ltac:(unfold u64_max; lia)) as (w' & E & R' & Hh & Ht). rewrite E in S. destruct (report_then _ _); [|discriminate]. injection S as <- <-.
  assert (i < length (g_members g))%nat by (apply nth_error_Some; congruence). cbn [set_member g_members]. rewrite nth_upd, Nat.eqb_refl. destruct (Nat.ltb_spec i (length (g_members g))); [|lia]. eexists. split; [reflexivity|]. exact Hh.
Qed.

Lemma user_stop_app tr ev : user_stop tr -> user_stop (tr ++ ev).
Proof. intros [H|H]; [left|right]; apply in_or_app; auto. Qed.
Definition holds (h : hold) (i : nat) : bool := match h with HFree => false | HAlloc j _ _ | HPush j _ => Nat.eqb j i end.
Lemma holding_holds s i : holding s i = holds (x_hold s) i. Proof. reflexivity. Qed.

Lemma inv_upd_g tr s gl g e h : rinv tr s -> g_step (x_g s) gl = Ok g e -> hold_ok (upd_g s g h) ->
  pushing h = pushing (x_hold s) ++ readies (chunk_events e) ->
  (forall v, cnt v (held h) + cnt v (map snd (allocs (chunk_events e))) = cnt v (held (x_hold s)) + cnt v (readies (chunk_events e)))%nat ->
  (forall i, is_removed s i = true -> holds h i = false) -> rinv (tr ++ map EvG e) (upd_g s g h).
Proof.
  intros R S H1 H2 H3 H4. destruct R as [Rg Rh Rl Rp Rd Rr Ro Rs Rb Rgr Rc Rds Rst] eqn:ER. clear ER. destruct (kept_ex _ _ R) as (kept & K). destruct (no_others e) as (N1 & N2 & N3 & N4).
  constructor; cbn [x_g x_hold x_data x_dstop x_prod x_free x_fstop x_grave x_mine x_done x_removed x_stop upd_g]; rewrite ?gev_g, ?sents_app, ?burieds_app, ?freeds_app, ?gots_app, ?made_app, ?N1, ?N2, ?N3, ?N4, ?app_nil_r, ?made_g; auto.
  - eapply gr_step; eauto.
  - intros i D. destruct (Rd i D) as (m & Hm & Hh). eapply (done_keep (x_g s) _ gl g e i m); eauto.
  - intros i D. destruct (Rr i D) as [D1 D2]. split; [exact D1|]. apply quiet_facts in D2 as (m & Hm & Hp & Hho). destruct (Rd i D1) as (m2 & Hm2 & Hh). rewrite Hm in Hm2. injection Hm2 as <-.
    destruct (idle_keep (x_g s) _ gl g e i m Rg S Hm Hp Hh) as (m' & Hm' & Hp' & _). apply quiet_facts. exists m'. cbn [x_g upd_g]. repeat split; auto. exact (H4 i D).
  - rewrite Ro, H2, !app_assoc. reflexivity.
  - intros v kept' K'. rewrite given_app, K, given_g in K'. rewrite <- !app_assoc in K'. apply app_inv_head in K'. apply (f_equal (cnt v)) in K'. rewrite !cnt_app in K'. specialize (Rc v kept K). specialize (H3 v). lia.
  - intro D. destruct (Rds D) as [U|U]; [left; now apply user_stop_app|right; exact U].
Qed.
Definition neutral (ev : list rgev) : Prop := g_events ev = [] /\ sents ev = [] /\ burieds ev = [] /\ freeds ev = [] /\ gots ev = [].
Lemma inv_stop tr s ev d f p : rinv tr s -> neutral ev -> stop_ok (upd_stop s d f p) -> (x_dstop s = true -> d = true) -> (d = true -> x_dstop s = true \/ user_stop (tr ++ ev)) -> rinv (tr ++ ev) (upd_stop s d f p).
Proof.
  intros R (N0 & N1 & N2 & N3 & N4) H1 H2 H3. destruct R as [Rg Rh Rl Rp Rd Rr Ro Rs Rb Rgr Rc Rds Rst].
  assert (M : made (tr ++ ev) = made tr) by (unfold made; now rewrite gev_app, N0, app_nil_r). assert (Gv : given (tr ++ ev) = given tr) by (unfold given, given_ids; now rewrite gev_app, N0, app_nil_r).
  constructor; cbn [x_g x_hold x_data x_dstop x_prod x_free x_fstop x_grave x_mine x_done x_removed x_stop upd_stop]; rewrite ?gev_app, ?sents_app, ?burieds_app, ?freeds_app, ?gots_app, ?N0, ?N1, ?N2, ?N3, ?N4, ?app_nil_r, ?M, ?Gv; auto.
  - intro D. apply Rb. destruct (x_dstop s); [rewrite H2 in D by reflexivity; discriminate|reflexivity].
  - intro D. destruct (H3 D) as [E|U]; [|auto]. destruct (Rds E) as [U|U]; [left; now apply user_stop_app|right; exact U].
Qed.
Lemma is_done_upd l i j : (i < length l)%nat -> nth j (upd l i true) false = (Nat.eqb j i || nth j l false)%bool.
Proof.
  intro L. destruct (Nat.eqb_spec j i) as [->|N]; cbn [orb].
  - rewrite (nth_error_nth _ _ _ (upd_same l i true L)). reflexivity.
  - destruct (nth_error l j) as [b|] eqn:E.
    + rewrite (nth_error_nth l _ _ E). apply nth_error_nth. now rewrite upd_other.
    + apply nth_error_None in E. rewrite !nth_overflow; auto. now rewrite upd_length.
Qed.
Lemma inv_mark tr s i p : rinv tr s -> (exists m, nth_error (g_members (x_g s)) i = Some m /\ w_head (mb_win m) = u64_max) -> stop_ok (upd_done s (x_g s) i p) -> rinv tr (upd_done s (x_g s) i p).
Proof.
  intros R H1 H2. assert (Ln := members_len _ _ (r_g _ _ R)). destruct R as [Rg Rh Rl Rp Rd Rr Ro Rs Rb Rgr Rc Rds Rst].
  assert (Li : (i < length (x_done s))%nat) by (destruct H1 as (m & Hm & _); rewrite (proj1 Rl), <- Ln; apply nth_error_Some; congruence).
  constructor; cbn [x_g x_hold x_data x_dstop x_prod x_free x_fstop x_grave x_mine x_done x_removed x_stop upd_done]; rewrite ?upd_length; auto.
  - intros j D. unfold is_done in D. cbn [x_done upd_done] in D. rewrite is_done_upd in D by exact Li. apply orb_true_iff in D as [D|D]; [apply Nat.eqb_eq in D; now subst j|exact (Rd j D)].
  - intros j D. destruct (Rr j D) as [D1 D2]. split; [|exact D2]. unfold is_done. cbn [x_done upd_done]. rewrite is_done_upd by exact Li. unfold is_done in D1. rewrite D1. apply orb_true_r.
Qed.
Lemma lookup_in acc p : NoDup (map fst acc) -> In p acc -> lookup acc (fst p) = snd p.
Proof.
  unfold lookup. induction acc as [|q acc IH]; intros N I; [destruct I|]. cbn [map] in N. inversion N as [|? ? N1 N2]; subst. cbn [find]. destruct (Z.eqb_spec (fst q) (fst p)) as [E|E].
  - destruct I as [->|I]; [reflexivity|]. exfalso. apply N1. rewrite E. now apply in_map.
  - destruct I as [->|I]; [congruence|]. now apply IH.
Qed.
Lemma allocs_held i ids acc : NoDup (map fst acc) -> map snd (allocs (alloc_events (lookup acc) (map fst acc))) = held (HAlloc i ids acc).
Proof.
  intro N. cbn [held]. assert (H : forall l, (forall p, In p l -> In p acc) -> map snd (allocs (alloc_events (lookup acc) (map fst l))) = flat_map (fun p => opt_list (snd p)) l).
  { induction l as [|p l IH]; intro I; [reflexivity|]. cbn [map alloc_events flat_map]. unfold alloc_events in IH. cbn [allocs]. rewrite (lookup_in acc p N) by (apply I; now left).
    destruct (snd p); cbn [opt_list app map allocs]; [f_equal|]; apply IH; intros q Q; apply I; now right. }
  apply H. auto.
Qed.
Lemma readies_alloc b l : readies (alloc_events b l) = [].
Proof. unfold readies, alloc_events. induction l; [reflexivity|]. exact IHl. Qed.
Lemma hold_less tr s gl g e : rinv tr s -> mutexless (x_g s) gl -> (forall i, who_of gl = Some i -> holding s i = false) -> g_step (x_g s) gl = Ok g e -> hold_ok (upd_g s g (x_hold s)).
Proof.
  intros R Q W S. pose proof (r_hold _ _ R) as H. unfold hold_ok in *. cbn [x_hold upd_g x_g]. destruct (x_hold s) as [|i ids acc|i out] eqn:E; auto. destruct H as (m & Hm & A & Gs & Wn).
  destruct (quiet_step _ _ _ _ Q S) as (Q1 & _ & _ & Q4). destruct (Q4 i m Hm) as (m' & Hm' & Ew & Ep).
  { intro Wi. specialize (W i Wi). unfold holding in W. rewrite E, Nat.eqb_refl in W. discriminate. }
  exists m'. split; [exact Hm'|]. split; [destruct Ep as [Ep|Ep]; [|apply at_alloc_wake in A]; destruct A as (id & A); exists id; rewrite Ep; exact A|].
  unfold goes, wanted in *. rewrite Ew, Q1. auto.
Qed.
Lemma inv_less tr s gl g e : rinv tr s -> mutexless (x_g s) gl -> (forall i, who_of gl = Some i -> holding s i = false) -> g_step (x_g s) gl = Ok g e -> rinv (tr ++ map EvG e) (upd_g s g (x_hold s)).
Proof.
  intros R Q W S. destruct (quiet_step _ _ _ _ Q S) as (Q1 & Q2 & Q3 & Q4). eapply inv_upd_g; eauto using hold_less.
  - now rewrite Q3, app_nil_r.
  - intro v. rewrite Q2, Q3. cbn. lia.
  - intros i D. destruct (r_rem _ _ R i D) as [_ D2]. apply quiet_facts in D2 as (m & _ & _ & Hh). exact Hh.
Qed.
Lemma not_holding s i m : quiet_m s i = true -> nth_error (g_members (x_g s)) i = Some m -> mb_pc m = PIdle.
Proof. intros D Hm. apply quiet_facts in D as (m2 & Hm2 & Hp & _). congruence. Qed.
Lemma sumw_all w : forall l : list bool, sumw w l = 0%nat -> w false = 1%nat -> forall i, (i < length l)%nat -> nth i l false = true.
Proof. induction l as [|b l IH]; intros H W i L; cbn [length] in L; [lia|]. cbn [sumw] in H. destruct i as [|i]; cbn [nth]; [destruct b; [reflexivity|lia]|apply IH; auto; lia]. Qed.
Lemma mem_remove v w l : mem_z w l = true -> cnt v l = (cnt v (remove1 w l) + (if Z.eq_dec w v then 1 else 0))%nat.
Proof.
  unfold mem_z. induction l as [|x l IH]; intro H; [discriminate|]. cbn [existsb] in H. cbn [remove1]. destruct (Z.eqb_spec w x) as [->|N]; rewrite ?cnt_cons; [lia|]. cbn [orb] in H. rewrite IH by exact H. lia.
Qed.


Lemma neutral_nil : neutral []. Proof. repeat split. Qed.
Lemma pushed_hold i c (out : list Z) : pushing (match out with [] => HFree | _ => HPush i out end) = out /\ held (match out with [] => HFree | _ => HPush i out end) = out /\ c :: out = [c] ++ out.
Proof. destruct out; auto. Qed.
Lemma rinv_step tr s l s' ev : rinv tr s -> rcase capd capf s l s' ev -> rinv (tr ++ ev) s'.
Proof.
  intros R C. assert (Ln := members_len _ _ (r_g _ _ R)). destruct (reach_ginv _ _ (r_g _ _ R)) as (mon & gl & _ & G).
  assert (NH : forall i m, nth_error (g_members (x_g s)) i = Some m -> mb_pc m <> PIdle -> is_removed s i = false).
  { intros i m Hm Np. destruct (is_removed s i) eqn:E; [|reflexivity]. exfalso. apply Np. eapply not_holding; eauto. exact (proj2 (r_rem _ _ R i E)). }
  assert (KH : forall i, is_removed s i = true -> holds (x_hold s) i = false).
  { intros i D. destruct (r_rem _ _ R i D) as [_ D2]. apply quiet_facts in D2 as (m & _ & _ & Hh). exact Hh. }
  assert (US : forall i, unlocked s i = true -> forall j, who_of (LStop i) = Some j -> holding s j = false).
  { intros i U j E. injection E as <-. destruct (unlocked_quiet s i U) as (Q & _). apply quiet_facts in Q as (m & _ & _ & Hh). exact Hh. }
  destruct C as [l gll g e Q W _ _ S _|l i p g e U Dn S Lp|i g e U Hs S|g e Hs Lo S|i m h k g e Hf Hm Hp S|i m g e Hf Hm A Nd S|i m Hf Hm A Nd|i m acc g e Hf Hm S
    |i Q D Nr|i id ids acc v f Hf Fr|i id ids acc Hf Fr Fs|i c out Hf Ds|i c out Hf Ds Lt|Hs|Hs|Hs Lo|i Hs Li U D|i b Hs Li|i Hs Q|i Hs Q D|v M Fs Lt|v M|c d Da|b].
  - (* less *) eapply inv_less; eauto.
  - (* done *) pose proof (inv_less tr s (LStop i) g e R I (US i U) S) as R1. pose proof (stop_head _ _ _ _ _ (r_g _ _ R) S) as Hd.
    change (upd_done s g i p) with (upd_done (upd_g s g (x_hold s)) (x_g (upd_g s g (x_hold s))) i p). apply inv_mark; [exact R1|exact Hd|].
    assert (Li : (i < length (x_done s))%nat) by (destruct Hd as (m & Hm & _); rewrite (proj1 (r_len _ _ R)), <- (members_len _ _ (r_g _ _ R1)); apply nth_error_Some; cbn [x_g upd_g] in *; congruence).
    pose proof (r_stop _ _ R) as So. unfold stop_ok in *. unfold is_removed, is_done in *. cbn [x_stop upd_done x_dstop x_fstop x_removed x_done upd_g] in *.
    destruct Lp as [[-> ->]|(-> & Hs & ->)].
    + destruct (x_stop s) as [| | |j b|j b]; auto. destruct So as (S1 & S2 & S3 & S4 & S5). repeat split; auto. intro B. rewrite is_done_upd by exact Li. rewrite (S5 B). apply orb_true_r.
    + rewrite Hs in So. destruct So as (S1 & S2 & S3 & S4). repeat split; auto; [rewrite <- (proj1 (r_len _ _ R)); exact Li|]. intros _. rewrite is_done_upd by exact Li. now rewrite Nat.eqb_refl.
  - (* flush *) pose proof (inv_less tr s (LStop i) g e R I (US i U) S) as R1. rewrite <- (app_nil_r (tr ++ map EvG e)). apply inv_stop; auto using neutral_nil.
    pose proof (r_stop _ _ R) as So. unfold stop_ok in *. rewrite Hs in So. cbn [x_stop upd_stop x_dstop x_fstop upd_g]. destruct So as (S1 & S2 & S3 & S4). repeat split; auto; [|discriminate].
    destruct (stop_head _ _ _ _ _ (r_g _ _ R) S) as (m & Hm & _). rewrite <- (members_len _ _ (r_g _ _ R1)). apply nth_error_Some. cbn [x_g upd_g] in *. congruence.
  - (* post *) pose proof (inv_less tr s LPostStop g e R I ltac:(intros j E; discriminate) S) as R1. rewrite <- (app_nil_r (tr ++ map EvG e)). apply inv_stop; auto using neutral_nil.
    pose proof (r_stop _ _ R) as So. unfold stop_ok in *. rewrite Hs in So. cbn [x_stop upd_stop x_dstop x_fstop upd_g]. destruct So as (S1 & S2). repeat split; auto; [lia|]. intros j Lj. lia.
  - (* report *) assert (Li : (i < n)%nat) by (rewrite <- Ln; apply nth_error_Some; congruence). pose proof (report_step _ _ _ _ _ _ _ _ Hm Hp S) as Al. unfold after. eapply inv_upd_g; eauto.
    + unfold hold_ok. cbn [x_hold upd_g]. destruct (readies (chunk_events e)); [exact I|]. split; [discriminate|exact Li].
    + rewrite Hf. destruct (readies (chunk_events e)); reflexivity.
    + intro v. rewrite Hf, Al. cbn [held map]. destruct (readies (chunk_events e)); cbn [held]; lia.
    + intros j D. destruct (readies (chunk_events e)); [reflexivity|]. cbn [holds]. destruct (Nat.eqb_spec i j) as [->|]; [|reflexivity]. rewrite (NH j m Hm) in D; [discriminate|congruence].
  - (* wait *) assert (Ev : allocs (chunk_events e) = [] /\ readies (chunk_events e) = []).
    { assert (Dg : goes gmax (x_g s) m \/ ~ goes gmax (x_g s) m) by (unfold goes; lia). destruct Dg as [Gs|Gs].
      - pose proof (needs_goes _ _ _ _ _ _ G i m Hm A Gs) as Nw. destruct (alloc_goes _ _ _ _ _ _ G i m (fun _ => None) Hm A Gs) as (g' & S'). rewrite S in S'. injection S' as <- ->. rewrite <- Nw, Nd. split; reflexivity.
      - destruct (alloc_waits _ _ _ _ _ _ G i m (fun _ => None) Hm A Gs) as (g' & S' & _). rewrite S in S'. injection S' as <- ->. split; reflexivity. }
    destruct Ev as [Ea Er]. eapply inv_upd_g; eauto.
    + exact I.
    + rewrite Hf, Er. reflexivity.
    + intro v. rewrite Hf, Ea, Er. reflexivity.
  - (* begin *) rewrite app_nil_r.
    assert (Gs : goes gmax (x_g s) m). { destruct (Z.lt_ge_cases (w_tail (mb_win m) - w_head (g_win (x_g s))) (Z.of_nat gmax)) as [L|L]; [exact L|]. exfalso. apply Nd. eapply needs_waits; eauto. unfold goes. lia. }
    assert (Np : mb_pc m <> PIdle) by (destruct A as (id & [A|(t & A)]); congruence).
    destruct R as [Rg Rh Rl Rp Rd Rr Ro Rs Rb Rgr Rc Rds Rst]. constructor; cbn [x_g x_hold x_data x_dstop x_prod x_free x_fstop x_grave x_mine x_done x_removed x_stop upd_g]; auto.
    + unfold hold_ok. cbn [x_hold upd_g x_g]. exists m. repeat split; auto. cbn [map app]. eapply needs_goes; eauto.
    + intros j D. destruct (Rr j D) as [D1 D2]. split; [exact D1|]. apply quiet_facts in D2 as (m2 & Hm2 & Hp2 & _). apply quiet_facts. exists m2. cbn [x_g upd_g]. repeat split; auto. unfold holding. cbn [x_hold upd_g].
      destruct (Nat.eqb_spec i j) as [->|]; [congruence|reflexivity].
    + rewrite Ro, Hf. reflexivity.
    + intros v kept K. rewrite (Rc v kept K), Hf. reflexivity.
  - (* chunk *) pose proof (r_hold _ _ R) as H. unfold hold_ok in H. rewrite Hf in H. destruct H as (m2 & Hm2 & A & Gs & Wn). rewrite Hm in Hm2. injection Hm2 as <-. rewrite app_nil_r in Wn.
    destruct (alloc_goes _ _ _ _ _ _ G i m (lookup acc) Hm A Gs) as (g' & S'). rewrite S in S'. injection S' as <- ->.
    assert (Nn : NoDup (map fst acc)) by (rewrite Wn; apply zr_nodup). eapply inv_upd_g; eauto.
    + exact I.
    + rewrite chunk_events_map, readies_alloc, Hf. reflexivity.
    + intro v. rewrite chunk_events_map, readies_alloc, <- Wn, (allocs_held i []) by exact Nn. rewrite Hf. change (cnt v []) with 0%nat. cbn [held]. change (cnt v (@nil Z)) with 0%nat. lia.
  - (* remove *) rewrite app_nil_r. destruct R as [Rg Rh Rl Rp Rd Rr Ro Rs Rb Rgr Rc Rds Rst].
    assert (Li : (i < length (x_removed s))%nat) by (apply quiet_facts in Q as (m & Hm & _); rewrite (proj2 Rl), <- Ln; apply nth_error_Some; congruence).
    assert (Rm : forall j, is_removed (upd_removed s i) j = (Nat.eqb j i || is_removed s j)%bool) by (intro j; unfold is_removed; cbn [x_removed upd_removed]; now apply is_done_upd).
    assert (Sw : x_prod s = S (sumw (fun b : bool => if b then 0 else 1)%nat (upd (x_removed s) i true))).
    { rewrite Rp. assert (E : nth_error (x_removed s) i = Some false) by (unfold is_removed in Nr; rewrite <- Nr; apply nth_error_nth'; exact Li).
      pose proof (sumw_upd (fun b : bool => if b then 0 else 1)%nat (x_removed s) i false true E) as Y. cbn in Y. lia. }
    constructor; cbn [x_g x_hold x_data x_dstop x_prod x_free x_fstop x_grave x_mine x_done x_removed x_stop upd_removed]; rewrite ?upd_length; auto.
    + lia.
    + intros j D2. rewrite Rm in D2. apply orb_true_iff in D2 as [D2|D2]; [apply Nat.eqb_eq in D2; subst j; split; [exact D|exact Q]|exact (Rr j D2)].
    + intro D2. apply Rb. now destruct (x_dstop s).
    + intro D2. apply orb_true_iff in D2 as [D2|D2].
      * destruct (Rds D2) as [U|U]; [now left|right]. intros j Lj. rewrite Rm, (U j Lj). apply orb_true_r.
      * right. apply Nat.eqb_eq in D2. intros j Lj. apply sumw_all with (w := fun b : bool => if b then 0%nat else 1%nat); [cbn [x_removed upd_removed]; lia|reflexivity|]. cbn [x_removed upd_removed]. rewrite upd_length. lia.
    + unfold stop_ok in *. cbn [x_stop upd_removed x_dstop x_fstop]. assert (Mo : forall j, is_removed s j = true -> is_removed (upd_removed s i) j = true) by (intros j E; rewrite Rm, E; apply orb_true_r).
      destruct (x_stop s) as [| | |j b|j b]; auto; [now rewrite Rst| | |]; [destruct Rst as (S1 & S2)|destruct Rst as (S1 & S2 & S3 & S4)|destruct Rst as (S1 & S2 & S3 & S4 & S5)]; rewrite S1; repeat split; auto.
  - (* pop *) rewrite app_nil_r. destruct R as [Rg Rh Rl Rp Rd Rr Ro Rs Rb Rgr Rc Rds Rst]. constructor; cbn [x_g x_hold x_data x_dstop x_prod x_free x_fstop x_grave x_mine x_done x_removed x_stop upd_free]; auto.
    + unfold hold_ok in *. rewrite Hf in Rh. cbn [x_hold upd_free x_g]. destruct Rh as (m & Hm & A & Gs & Wn). exists m. repeat split; auto. rewrite map_app, <- app_assoc. exact Wn.
    + intros j D. destruct (Rr j D) as [D1 D2]. split; [exact D1|]. apply quiet_facts in D2 as (m2 & Hm2 & Hp2 & Hh). apply quiet_facts. exists m2. repeat split; auto. unfold holding in *. cbn [x_hold upd_free]. now rewrite Hf in Hh.
    + rewrite Ro, Hf. reflexivity.
    + intros w kept K. rewrite (Rc w kept K), Hf, Fr. cbn [held]. rewrite flat_map_app, cnt_app, cnt_cons. cbn [flat_map opt_list snd app]. rewrite cnt_cons. change (cnt w (@nil Z)) with 0%nat. lia.
  - (* null *) rewrite app_nil_r. destruct R as [Rg Rh Rl Rp Rd Rr Ro Rs Rb Rgr Rc Rds Rst]. constructor; cbn [x_g x_hold x_data x_dstop x_prod x_free x_fstop x_grave x_mine x_done x_removed x_stop upd_free]; auto.
    + unfold hold_ok in *. rewrite Hf in Rh. cbn [x_hold upd_free x_g]. destruct Rh as (m & Hm & A & Gs & Wn). exists m. repeat split; auto. rewrite map_app, <- app_assoc. exact Wn.
    + intros j D. destruct (Rr j D) as [D1 D2]. split; [exact D1|]. apply quiet_facts in D2 as (m2 & Hm2 & Hp2 & Hh). apply quiet_facts. exists m2. repeat split; auto. unfold holding in *. cbn [x_hold upd_free]. now rewrite Hf in Hh.
    + rewrite Ro, Hf. reflexivity.
    + intros w kept K. rewrite (Rc w kept K), Hf, Fr. cbn [held]. rewrite flat_map_app, cnt_app. cbn [flat_map opt_list snd app]. change (cnt w (@nil Z)) with 0%nat. lia.
  - (* bury *) destruct (pushed_hold i c out) as (P1 & P2 & P3). destruct R as [Rg Rh Rl Rp Rd Rr Ro Rs Rb Rgr Rc Rds Rst].
    assert (M : made (tr ++ [EvBuried c]) = made tr) by (rewrite made_app; cbn; apply app_nil_r). assert (Gv : given (tr ++ [EvBuried c]) = given tr) by (rewrite given_app; cbn; apply app_nil_r).
    constructor; cbn [x_g x_hold x_data x_dstop x_prod x_free x_fstop x_grave x_mine x_done x_removed x_stop upd_data]; rewrite ?gev_app, ?sents_app, ?burieds_app, ?freeds_app, ?gots_app, ?M, ?Gv; cbn [g_events sents burieds freeds gots flat_map app]; rewrite ?app_nil_r; auto.
    + unfold hold_ok in *. rewrite Hf in Rh. cbn [x_hold upd_data]. destruct out; [exact I|]. split; [discriminate|exact (proj2 Rh)].
    + intros j D. destruct (Rr j D) as [D1 D2]. split; [exact D1|]. apply quiet_facts in D2 as (m2 & Hm2 & Hp2 & Hh). apply quiet_facts. exists m2. repeat split; auto. unfold holding in *. rewrite Hf in Hh. cbn [x_hold upd_data]. now destruct out.
    + rewrite Ro, Hf, P1. cbn [pushing]. rewrite P3, !app_assoc. reflexivity.
    + rewrite Ds. discriminate.
    + intro v. rewrite cnt_app, Rgr, !cnt_cons. change (cnt v (@nil Z)) with 0%nat. lia.
    + intros v kept K. rewrite (Rc v kept K), Hf, P2. cbn [held]. rewrite !cnt_cons. lia.
    + intro D. destruct (Rds D) as [U|U]; [left; now apply user_stop_app|right; exact U].
  - (* send *) destruct (pushed_hold i c out) as (P1 & P2 & P3). destruct R as [Rg Rh Rl Rp Rd Rr Ro Rs Rb Rgr Rc Rds Rst].
    assert (M : made (tr ++ [EvSent c]) = made tr) by (rewrite made_app; cbn; apply app_nil_r). assert (Gv : given (tr ++ [EvSent c]) = given tr) by (rewrite given_app; cbn; apply app_nil_r).
    constructor; cbn [x_g x_hold x_data x_dstop x_prod x_free x_fstop x_grave x_mine x_done x_removed x_stop upd_data]; rewrite ?gev_app, ?sents_app, ?burieds_app, ?freeds_app, ?gots_app, ?M, ?Gv; cbn [g_events sents burieds freeds gots flat_map app]; rewrite ?app_nil_r; auto.
    + unfold hold_ok in *. rewrite Hf in Rh. cbn [x_hold upd_data]. destruct out; [exact I|]. split; [discriminate|exact (proj2 Rh)].
    + intros j D. destruct (Rr j D) as [D1 D2]. split; [exact D1|]. apply quiet_facts in D2 as (m2 & Hm2 & Hp2 & Hh). apply quiet_facts. exists m2. repeat split; auto. unfold holding in *. rewrite Hf in Hh. cbn [x_hold upd_data]. now destruct out.
    + rewrite Ro, Hf, P1, (Rb Ds). cbn [pushing app]. rewrite <- app_assoc. reflexivity.
    + rewrite Rs, app_assoc. reflexivity.
    + intros v kept K. rewrite (Rc v kept K), Hf, P2. cbn [held]. rewrite cnt_app, !cnt_cons. change (cnt v (@nil Z)) with 0%nat. lia.
    + intro D. congruence.
  - (* stop *) apply inv_stop; auto; [repeat split|reflexivity|]. intros _. right. left. apply in_or_app. right. now left.
  - (* ring *) apply inv_stop; auto using neutral_nil. pose proof (r_stop _ _ R) as So. unfold stop_ok in *. rewrite Hs in So. cbn. auto.
  - (* lossy *) apply inv_stop; auto using neutral_nil. pose proof (r_stop _ _ R) as So. unfold stop_ok in *. rewrite Hs in So. cbn [x_stop upd_stop x_dstop x_fstop]. destruct So as (S1 & S2). repeat split; auto; [lia|]. intros j Lj. lia.
  - (* skip *) apply inv_stop; auto using neutral_nil. pose proof (r_stop _ _ R) as So. unfold stop_ok in *. rewrite Hs in So. cbn [x_stop upd_stop x_dstop x_fstop]. destruct So as (S1 & S2 & S3 & S4). repeat split; auto; [lia|].
    intros j Lj. destruct (Nat.eq_dec j i) as [->|]; [|apply S4; lia]. exact (proj1 (proj2 (unlocked_quiet s i U)) D).
  - (* fin *) destruct (freed_ev (x_grave s)) as (F0 & F1 & F2 & F3 & F4). remember (map EvFreed (x_grave s) ++ [EvStopRet]) as fe eqn:Ef. clear Ef. destruct R as [Rg Rh Rl Rp Rd Rr Ro Rs Rb Rgr Rc Rds Rst].
    assert (M : made (tr ++ fe) = made tr) by (unfold made; now rewrite gev_app, F0, app_nil_r). assert (Gv : given (tr ++ fe) = given tr) by (unfold given, given_ids; now rewrite gev_app, F0, app_nil_r).
    constructor; cbn [x_g x_hold x_data x_dstop x_prod x_free x_fstop x_grave x_mine x_done x_removed x_stop upd_fin]; rewrite ?gev_app, ?sents_app, ?burieds_app, ?freeds_app, ?gots_app, ?M, ?Gv, ?F0, ?F1, ?F2, ?F3, ?F4, ?app_nil_r; auto.
    + intro v. rewrite cnt_app, Rgr. change (cnt v (@nil Z)) with 0%nat. lia.
    + intros v kept K. rewrite (Rc v kept K), cnt_app. change (cnt v (@nil Z)) with 0%nat. lia.
    + intro D. destruct (Rds D) as [U|U]; [left; now apply user_stop_app|right; exact U].
    + exact I.
  - (* second *) apply inv_stop; auto using neutral_nil. pose proof (r_stop _ _ R) as So. unfold stop_ok in *. rewrite Hs in So. cbn [x_stop upd_stop x_dstop x_fstop]. destruct So as (S1 & S2 & S3 & S4 & _). repeat split; auto. lia.
  - (* next *) apply inv_stop; auto using neutral_nil. pose proof (r_stop _ _ R) as So. unfold stop_ok in *. rewrite Hs in So. cbn [x_stop upd_stop x_dstop x_fstop]. destruct So as (S1 & S2 & S3 & S4 & _). repeat split; auto.
    intros j Lj. destruct (Nat.eq_dec j i) as [->|]; [exact D|apply S4; lia].
  - (* add *) rewrite app_nil_r. destruct R as [Rg Rh Rl Rp Rd Rr Ro Rs Rb Rgr Rc Rds Rst]. constructor; cbn [x_g x_hold x_data x_dstop x_prod x_free x_fstop x_grave x_mine x_done x_removed x_stop upd_free]; auto.
    intros w kept K. rewrite (Rc w kept K), cnt_app, cnt_cons, (mem_remove w v _ M). change (cnt w (@nil Z)) with 0%nat. lia.
  - (* full *) now rewrite app_nil_r.
  - (* take *) destruct R as [Rg Rh Rl Rp Rd Rr Ro Rs Rb Rgr Rc Rds Rst].
    assert (M : made (tr ++ [EvGot c]) = made tr) by (rewrite made_app; cbn; apply app_nil_r). assert (Gv : given (tr ++ [EvGot c]) = given tr) by (rewrite given_app; cbn; apply app_nil_r).
    constructor; cbn [x_g x_hold x_data x_dstop x_prod x_free x_fstop x_grave x_mine x_done x_removed x_stop upd_data]; rewrite ?gev_app, ?sents_app, ?burieds_app, ?freeds_app, ?gots_app, ?M, ?Gv; cbn [g_events sents burieds freeds gots flat_map app]; rewrite ?app_nil_r; auto.
    + rewrite Rs, Da, <- app_assoc. reflexivity.
    + intros v kept K. rewrite (Rc v kept K), Da, !cnt_cons. lia.
    + intro D. destruct (Rds D) as [U|U]; [left; now apply user_stop_app|right; exact U].
  - (* ext *) apply inv_stop; auto; [repeat split| |intros ->; reflexivity|].
    + pose proof (r_stop _ _ R) as So. unfold stop_ok in *. cbn [x_stop upd_stop x_dstop x_fstop]. destruct (x_stop s); auto; [now rewrite So|destruct So as (S1 & S2)| |]; try destruct So as (S1 & S2 & So); rewrite S1, S2; cbn [orb]; auto.
    + intros _. right. right. apply in_or_app. right. now left.
Qed.
Lemma rinv_new : rinv [] (rg_new lossy gmax maxs chunks).
Proof.
  constructor; cbn [x_g x_hold x_data x_dstop x_prod x_free x_fstop x_grave x_mine x_done x_removed x_stop rg_new]; auto; try discriminate.
  - constructor.
  - exact I.
  - now rewrite !repeat_length.
  - induction (length maxs) as [|k IH]; [reflexivity|]. cbn [repeat sumw]. lia.
  - intros i D. unfold is_done in D. cbn [x_done rg_new] in D. now rewrite nth_repeat in D.
  - intros i D. unfold is_removed in D. cbn [x_removed rg_new] in D. now rewrite nth_repeat in D.
  - intros v kept K. change (given []) with (@nil Z) in K. change (made []) with (@nil Z) in K. cbn [app] in K. subst kept. change (cnt v (@nil Z)) with 0%nat. cbn [held freeds flat_map]. change (cnt v (@nil Z)) with 0%nat. lia.
  - exact I.
Qed.
Lemma rinv_exec tr s : rexec capd capf (rg_new lossy gmax maxs chunks) tr s -> rinv tr s.
Proof. induction 1 as [|tr s l s' ev X IH S]; [apply rinv_new|]. eapply rinv_step; [exact IH|]. now apply rcases with (1 := S). Qed.


(** ** When all streams have ended *)
Lemma all_ended tr s : rinv tr s -> all_removed s -> x_hold s = HFree /\ given tr = made tr /\ (forall m, In m (g_members (x_g s)) -> mb_pc m = PIdle /\ w_head (mb_win m) = u64_max).
Proof.
  intros R A. assert (Ln := members_len _ _ (r_g _ _ R)). destruct (reach_ginv _ _ (r_g _ _ R)) as (mon & gl & M & G).
  assert (Md : forall i m, nth_error (g_members (x_g s)) i = Some m -> mb_pc m = PIdle /\ holds (x_hold s) i = false /\ w_head (mb_win m) = u64_max).
  { intros i m Hm. assert (Li : (i < n)%nat) by (rewrite <- Ln; apply nth_error_Some; congruence). destruct (r_rem _ _ R i (A i Li)) as [D1 D2]. apply quiet_facts in D2 as (m2 & Hm2 & Hp & Hh). destruct (r_done _ _ R i D1) as (m3 & Hm3 & Hw).
    rewrite Hm in Hm2, Hm3. injection Hm2 as <-. injection Hm3 as <-. auto. }
  split; [|split].
  - pose proof (r_hold _ _ R) as Ho. unfold hold_ok in Ho. destruct (x_hold s) as [|i ids acc|i out]; [reflexivity| |]; exfalso.
    + destruct Ho as (m & Hm & _). destruct (Md i m Hm) as (_ & H & _). cbn [holds] in H. rewrite Nat.eqb_refl in H. discriminate.
    + destruct Ho as [_ Li]. rewrite <- Ln in Li. apply nth_error_Some in Li. destruct (nth_error (g_members (x_g s)) i) as [m|] eqn:Hm; [|congruence]. destruct (Md i m Hm) as (_ & H & _). cbn [holds] in H. rewrite Nat.eqb_refl in H. discriminate.
  - pose proof (cmon_handover _ _ _ _ M) as H. cbn [cmon0 cm_out map app] in H. unfold given, given_ids, made. rewrite H. replace (cm_out mon) with (@nil (Z * Z)); [apply app_nil_r|].
    destruct (gi_min _ _ _ _ _ _ G) as [Hj _]. apply In_nth_error in Hj as [j Hj]. destruct (gi_len _ _ _ _ _ _ G) as [L1 L2]. assert (j < length (g_heads (x_g s)))%nat by (apply nth_error_Some; congruence).
    destruct (nth_error (g_members (x_g s)) j) as [m|] eqn:Hm; [|apply nth_error_None in Hm; lia]. destruct (Md j m Hm) as (Hp & _ & Hw). destruct (member_data _ _ _ _ _ _ _ _ G Hm) as (mmax & hd & _ & Y & _ & _ & Mo). rewrite Hj in Y. injection Y as <-.
    pose proof (mo_head _ _ _ _ _ _ _ _ Mo) as Hh. rewrite Hp in Hh. pose proof (proj1 (gi_win _ _ _ _ _ _ G)) as Jw. pose proof (rp_range _ _ _ (j_rep _ _ _ _ Jw)) as (R1 & R2 & R3). pose proof (j_out _ _ _ _ Jw) as Jo.
    destruct gl as [|o gl]; [now rewrite Jo|]. exfalso. unfold zlen in R2. cbn [length] in R2. unfold u64_max in *. lia.
  - intros m I. apply In_nth_error in I as [i Hm]. destruct (Md i m Hm) as (H1 & _ & H2). auto.
Qed.
Lemma removed_keep l s s' ev i : rcase capd capf s l s' ev -> is_removed s i = true -> is_removed s' i = true.
Proof.
  intros C D. destruct C; try exact D. unfold is_removed in *. cbn [x_removed upd_removed]. destruct (Nat.eq_dec i i0) as [->|N].
  - assert (L : (i0 < length (x_removed s))%nat) by (destruct (Nat.lt_ge_cases i0 (length (x_removed s))); [assumption|]; rewrite nth_overflow in D by assumption; discriminate). rewrite is_done_upd by exact L. now rewrite Nat.eqb_refl.
  - assert (X : nth_error (x_removed s) i = Some true) by (destruct (nth_error (x_removed s) i) eqn:E; [rewrite (nth_error_nth _ _ _ E) in D; now subst|apply nth_error_None in E; rewrite nth_overflow in D by assumption; discriminate]).
    apply nth_error_nth. now rewrite upd_other.
Qed.
Lemma stop_returned tr s : rexec capd capf (rg_new lossy gmax maxs chunks) tr s -> In EvStopRet tr -> all_removed s /\ x_grave s = [] /\ x_dstop s = true /\ x_fstop s = true.
Proof.
  induction 1 as [|tr s l s' ev X IH S]; [intros []|]. intro I. pose proof (rinv_exec _ _ X) as R. pose proof (rcases _ _ _ _ _ _ S) as C. apply in_app_or in I as [I|I].
  - destruct (IH I) as (A & B & D1 & D2). assert (A' : all_removed s') by (intros j L; eapply removed_keep; eauto). split; [exact A'|]. destruct (all_ended _ _ R A) as (Hf & _). destruct C; cbn [x_grave x_dstop x_fstop upd_g upd_done upd_stop upd_removed upd_free upd_data upd_fin]; try congruence; rewrite ?D1, ?D2; auto.
  - assert (NE : forall e, ~ In EvStopRet (map EvG e)) by (intros e H; apply in_map_iff in H as (y & E & _); discriminate).
    pose proof (r_stop _ _ R) as So. unfold stop_ok in So. destruct C; try (exfalso; eapply NE; eassumption); try (destruct I; fail); try (destruct I as [I|[]]; discriminate).
    rewrite H in So. destruct So as (S1 & S2 & S3 & S4). split; [|auto]. intros j L. apply S4. rewrite (members_len _ _ (r_g _ _ R)) in H0. lia.
Qed.

(** ** When nothing can go on *)
Definition stuck (s : rgst) : Prop := forall l, on_its_own l = true -> rstep capd capf s l = RBlocked.
Lemma stuck_removed s i : stuck s -> quiet_m s i = true -> is_done s i = true -> is_removed s i = true.
Proof. intros Q H1 H2. specialize (Q (RRemove i) eq_refl). cbn [rstep] in Q. rewrite H1, H2 in Q. destruct (is_removed s i); [reflexivity|discriminate]. Qed.
Lemma stuck_quiet tr s i : rinv tr s -> stuck s -> quiet_m s i = true -> unlocked s i = true.
Proof.
  intros R Q H. unfold unlocked. rewrite H. cbn [andb]. assert (D : (is_done s i && negb (is_removed s i))%bool = false) by (destruct (is_done s i) eqn:E; [|reflexivity]; now rewrite (stuck_removed s i Q H E)). rewrite D. cbn [negb andb].
  pose proof (Q RStopGo eq_refl) as S. cbn [rstep] in S. unfold stop_go in S. destruct (x_stop s) as [| | |j b|j b] eqn:E; try reflexivity. destruct (Nat.eqb_spec j i) as [->|]; [|reflexivity]. exfalso.
  rewrite H in S. destruct b; [|discriminate]. pose proof (r_stop _ _ R) as So. unfold stop_ok in So. rewrite E in So. destruct So as (_ & _ & _ & _ & So). rewrite (stuck_removed s i Q H (So eq_refl)) in S. discriminate.
Qed.
Lemma stuck_group tr s : rinv tr s -> stuck s -> x_hold s = HFree -> forall l, internal l = true -> g_step (x_g s) l = Blocked.
Proof.
  intros R Q Hf l Il. destruct (reach_ginv _ _ (r_g _ _ R)) as (mon & gl & M & G). destruct l as [i id|i al|i j|i| |i|i id]; try discriminate.
  - pose proof (Q (RGo i) eq_refl) as S. cbn [rstep] in S. unfold go in S. destruct (nth_error (g_members (x_g s)) i) as [m|] eqn:Hm; [|cbn [g_step]; now rewrite Hm].
    assert (K : forall k, g_do s i (LStep i (fun _ => None)) k = RBlocked -> g_step (x_g s) (LStep i (fun _ => None)) = Blocked) by (intros k H; unfold g_do in H; destruct (g_step (x_g s) (LStep i (fun _ => None))); [reflexivity|discriminate|discriminate]).
    assert (AW : forall p, mb_pc m = p -> at_alloc m -> g_step (x_g s) (LStep i (fun _ => None)) <> Blocked).
    { intros p _ A B. destruct (Z.lt_ge_cases (w_tail (mb_win m) - w_head (g_win (x_g s))) (Z.of_nat gmax)) as [L|L].
      - destruct (alloc_goes _ _ _ _ _ _ G i m (fun _ => None) Hm A L) as (g' & E). congruence.
      - destruct (alloc_waits _ _ _ _ _ _ G i m (fun _ => None) Hm A) as (g' & E & _); [unfold goes; lia|congruence]. }
    cbn [g_step]. rewrite Hm. unfold member_step. destruct (mb_pc m) as [|id|h k|id|id t aw] eqn:E; [reflexivity| | | |].
    + unfold holding in S. rewrite Hf in S. apply K in S. cbn [g_step] in S. rewrite Hm in S. unfold member_step in S. rewrite E in S. exact S.
    + rewrite Hf in S. apply K in S. cbn [g_step] in S. rewrite Hm in S. unfold member_step in S. rewrite E in S. exact S.
    + exfalso. rewrite Hf in S. destruct (needs (x_g s) i); [|discriminate]. apply K in S. eapply AW; eauto. exists id. auto.
    + destruct aw; [|reflexivity]. exfalso. rewrite Hf in S. destruct (needs (x_g s) i); [|discriminate]. apply K in S. eapply AW; eauto. exists id. right. eauto.
  - pose proof (Q (RFlush i j) eq_refl) as S. cbn [rstep] in S. destruct (unlocked s i) eqn:U.
    + unfold g_do in S. destruct (g_step (x_g s) (LFlush i j)); [reflexivity|discriminate|discriminate].
    + cbn [g_step]. destruct (nth_error (g_members (x_g s)) i) as [m|] eqn:Hm; [|reflexivity]. destruct (mb_pc m) eqn:E; try reflexivity. exfalso.
      rewrite (stuck_quiet tr s i R Q) in U; [discriminate|]. apply quiet_facts. exists m. repeat split; auto. unfold holding. now rewrite Hf.
Qed.
(** Which call of a ring a stuck group waits in. *)
Lemma stuck_hold tr s : rinv tr s -> stuck s -> x_hold s = HFree \/ (exists i c out, x_hold s = HPush i (c :: out) /\ x_dstop s = false /\ (capd <= length (x_data s))%nat) \/
  (exists i id ids acc, x_hold s = HAlloc i (id :: ids) acc /\ x_fstop s = false /\ x_free s = []).
Proof.
  intros R Q. destruct (reach_ginv _ _ (r_g _ _ R)) as (mon & gl & M & G). pose proof (r_hold _ _ R) as Ho. unfold hold_ok in Ho. destruct (x_hold s) as [|i ids acc|i out] eqn:E; [now left| |].
  - right. right. destruct ids as [|id ids].
    + exfalso. destruct Ho as (m & Hm & A & Gs & _). pose proof (Q (RGo i) eq_refl) as S. cbn [rstep] in S. unfold go in S. rewrite Hm, E, Nat.eqb_refl in S. destruct (alloc_goes _ _ _ _ _ _ G i m (lookup acc) Hm A Gs) as (g' & St). unfold g_do in S. rewrite St in S.
      destruct A as (id & [A|(t & A)]); rewrite A in S; discriminate.
    + exists i, id, ids, acc. split; [reflexivity|]. pose proof (Q RPop eq_refl) as S. cbn [rstep] in S. rewrite E in S. destruct (x_free s); [|discriminate]. destruct (x_fstop s); [discriminate|auto].
  - right. left. destruct Ho as [Ne _]. destruct out as [|c out]; [congruence|]. exists i, c, out. split; [reflexivity|]. pose proof (Q RPush eq_refl) as S. cbn [rstep] in S. rewrite E in S. destruct (x_dstop s); [discriminate|]. destruct (Nat.ltb_spec (length (x_data s)) capd); [discriminate|auto].
Qed.


(** ** stop does not get stuck *)
Definition in_members (s : rgst) : Prop := match x_stop s with SMem _ _ | SIn _ _ => True | _ => False end.
Definition posted_run (g : group) : Prop := exists g1 tr0 g2 e1 ls e, g_reach g0 g1 tr0 /\ g_step g1 LPostStop = Ok g2 e1 /\ g_run g2 ls = Some (g, e).
Lemma posted_more g l g' e : posted_run g -> g_step g l = Ok g' e -> posted_run g'.
Proof. intros (g1 & tr0 & g2 & e1 & ls & e0 & H1 & H2 & H3) S. exists g1, tr0, g2, e1, (ls ++ [l]), (e0 ++ e). repeat split; auto. eapply g_run_snoc; eauto. Qed.
Lemma posted_exec tr s : rexec capd capf (rg_new lossy gmax maxs chunks) tr s -> lossy = false -> in_members s -> posted_run (x_g s).
Proof.
  intros X Lo. induction X as [|tr s l s' ev X IH S]; [intros []|]. intro I. pose proof (rinv_exec _ _ X) as R. destruct (reach_ginv _ _ (r_g _ _ R)) as (mon & gl & _ & G). pose proof (gi_lossy _ _ _ _ _ _ G) as GL.
  assert (MX : forall gll g' e, in_members s -> g_step (x_g s) gll = Ok g' e -> posted_run g') by (intros gll g' e J St; eapply posted_more; [apply IH; exact J|exact St]).
  destruct (rcases _ _ _ _ _ _ S) as [l gll g e Q W _ _ St _|l i p g e U Dn St Lp|i g e U Hs St|g e Hs Lo2 St|i m h k g e Hf Hm Hp St|i m g e Hf Hm A Nd St|i m Hf Hm A Nd|i m acc g e Hf Hm St
    |i Q D Nr|i id ids acc v f Hf Fr|i id ids acc Hf Fr Fs|i c out Hf Ds|i c out Hf Ds Lt|Hs|Hs|Hs Lo2|i Hs Li U D|i b Hs Li|i Hs Q|i Hs Q D|v M Fs Lt|v M|c d Da|b]; cbn [x_g upd_g upd_done upd_stop upd_removed upd_free upd_data upd_fin];
    unfold in_members in *; cbn [x_stop upd_g upd_done upd_stop upd_removed upd_free upd_data upd_fin] in I; try (eapply MX; eassumption); try (apply IH; exact I); try (destruct I; fail).
  - eapply MX; [|exact St]. destruct Lp as [[_ ->]|(_ & -> & _)]; [exact I|exact Logic.I].
  - eapply MX; [|exact St]. now rewrite Hs.
  - exists (x_g s), (g_events tr), g, e, [], []. split; [exact (r_g _ _ R)|]. split; [exact St|reflexivity].
  - congruence.
  - apply IH. now rewrite Hs.
  - apply IH. now rewrite Hs.
  - apply IH. now rewrite Hs.
Qed.
Lemma stop_not_stuck tr s : rexec capd capf (rg_new lossy gmax maxs chunks) tr s -> x_stop s <> SNo -> ~ stuck s.
Proof.
  intros X Ns Q. pose proof (rinv_exec _ _ X) as R. assert (Ln := members_len _ _ (r_g _ _ R)). pose proof (r_stop _ _ R) as So. pose proof (Q RStopGo eq_refl) as S. cbn [rstep] in S. destruct (reach_ginv _ _ (r_g _ _ R)) as (mon & gl & _ & G).
  assert (NF : forall l, g_step (x_g s) l <> Fault) by (intro l; eapply step_not_fault; eauto). assert (In_ : in_members s).
  { unfold in_members. unfold stop_go in S. destruct (x_stop s); try exact I; try congruence; try discriminate. destruct (g_lossy (x_g s)); [discriminate|]. unfold g_do in S. cbn [g_step] in S. discriminate. }
  assert (DF : x_dstop s = true /\ x_fstop s = true) by (unfold stop_ok, in_members in *; destruct (x_stop s); try contradiction; tauto).
  assert (Hf : x_hold s = HFree). { destruct (stuck_hold tr s R Q) as [H|[(i & c & out & _ & H & _)|(i & id & ids & acc & _ & H & _)]]; [exact H| |]; destruct DF; congruence. }
  pose proof (stuck_group tr s R Q Hf) as Bl.
  assert (Idle : forall m, In m (g_members (x_g s)) -> mb_pc m = PIdle).
  { pose proof (r_g _ _ R) as Rg. pose proof (fun E => posted_exec tr s X E In_) as Pr. unfold posted_run in Pr. destruct lossy eqn:El.
    - intros m Hm. exact (proj1 (C33_no_deadlock gmax maxs (x_g s) (g_events tr) Gok Rg Bl m Hm)).
    - destruct (Pr eq_refl) as (g1 & tr0 & g2 & e1 & ls & e & H1 & H2 & H3). intros m Hm. exact (proj1 (proj1 (C53_stop false gmax maxs g1 tr0 g2 e1 ls (x_g s) e Gok H1 H2 H3 Bl) m Hm)). }
  assert (Qt : forall i, (i < n)%nat -> quiet_m s i = true).
  { intros i Li. apply quiet_facts. destruct (nth_error (g_members (x_g s)) i) as [m|] eqn:Hm; [|apply nth_error_None in Hm; lia]. exists m. repeat split; [apply Idle; eapply nth_error_In; eauto|]. unfold holding. now rewrite Hf. }
  assert (SB : forall i k, (i < n)%nat -> g_do s i (LStop i) k <> RBlocked).
  { intros i k Li B. unfold g_do in B. destruct (g_step (x_g s) (LStop i)) eqn:E; try discriminate. pose proof (NF (LStop i)) as N. destruct (nth_error (g_members (x_g s)) i) as [m|] eqn:Hm; [|apply nth_error_None in Hm; lia].
    cbn [g_step] in E, N. rewrite Hm, (Idle m (nth_error_In _ _ Hm)) in E, N. destruct (flush_all _ _) as [[? ?]|]; [|congruence]. destruct (report_then _ _); [discriminate|congruence]. }
  unfold stop_go in S. unfold stop_ok in So. unfold in_members in In_. destruct (x_stop s) as [| | |i b|i b] eqn:E; try contradiction.
  - destruct (Nat.ltb_spec i (length (g_members (x_g s)))) as [L|L]; [|discriminate]. rewrite Ln in L. rewrite (stuck_quiet tr s i R Q (Qt i L)) in S. destruct b; [destruct (is_done s i)|]; try discriminate; eapply SB; eauto.
  - destruct So as (_ & _ & L & _ & Sd). rewrite (Qt i L) in S. destruct b; [|discriminate]. rewrite (stuck_removed s i Q (Qt i L) (Sd eq_refl)) in S. discriminate.
Qed.

(** ** Nothing goes on for ever *)
Definition kK : nat := gmax + 3.
Definition hw (h : hold) : nat := match h with HFree => gmax + 2 | HAlloc _ ids _ => 1 + length ids | HPush _ out => gmax + 2 + length out end.
Definition stages (p : stopper) : nat :=
  match p with SNo => 0 | SRing => 4 * n + 5 | SPost => 4 * n + 4 | SMem i b => 4 * (n - i) + (if b then 1 else 3) | SIn i b => 4 * (n - i) + (if b then 0 else 2) end.
Definition unremoved (s : rgst) : nat := length (filter (fun i => is_done s i && negb (is_removed s i))%bool (seq 0 n)).
Definition raise : nat := n * mP n + gmax * mW n + n + 2.
Definition stepw : nat := kK * raise + 2.
Definition rwork (s : rgst) : nat := kK * work (x_g s) + hw (x_hold s) + stepw * stages (x_stop s) + unremoved s.


Lemma post_work g g' e : g_step g LPostStop = Ok g' e -> (work g' = work g + length (g_members g) * mP (length (g_members g)))%nat.
Proof. intro S. cbn [g_step] in S. injection S as <- <-. unfold work. cbn [g_members]. rewrite map_length. apply sumw_post. Qed.
Lemma spur_work g i g' e : g_step g (LSpurious i) = Ok g' e -> (work g' <= work g + 1)%nat.
Proof.
  intro S. cbn [g_step] in S. destruct (nth_error (g_members g) i) as [m|] eqn:Hm; [|discriminate]. injection S as <- <-. pose proof (set_member_work g i m (wake m) Hm). pose proof (pw_wake (length (g_members g)) m). lia.
Qed.
Lemma filt_le {A} (p q : A -> bool) (i : A) (dec : forall x y : A, {x = y} + {x <> y}) : (forall x, x <> i -> q x = true -> p x = true) -> forall l, NoDup l -> (length (filter q l) <= length (filter p l) + (if in_dec dec i l then 1 else 0))%nat.
Proof.
  intro H. induction l as [|x l IH]; intro N; [cbn; lia|]. inversion N as [|? ? N1 N2]; subst. specialize (IH N2). cbn [filter]. destruct (dec x i) as [->|Ne].
  - destruct (in_dec dec i l); [contradiction|]. destruct (in_dec dec i (i :: l)) as [|Ni]; [|exfalso; apply Ni; now left]. destruct (q i), (p i); cbn [length]; lia.
  - specialize (H x Ne). destruct (in_dec dec i l) as [I|I]; destruct (in_dec dec i (x :: l)) as [J|J]; try (exfalso; apply J; now right); try (exfalso; destruct J; [congruence|contradiction]);
      (destruct (q x); [rewrite (H eq_refl)|destruct (p x)]; cbn [length]; lia).
Qed.
Lemma filt_lt {A} (p q : A -> bool) i : (forall x, q x = true -> p x = true) -> p i = true -> q i = false -> forall l, In i l -> (length (filter q l) < length (filter p l))%nat.
Proof.
  intros H P Q. assert (Le : forall l, (length (filter q l) <= length (filter p l))%nat).
  { induction l as [|x l IH]; [cbn; lia|]. cbn [filter]. specialize (H x). destruct (q x); [rewrite (H eq_refl)|destruct (p x)]; cbn [length]; lia. }
  induction l as [|x l IH]; intro I; [destruct I|]. cbn [filter]. destruct I as [->|I].
  - rewrite P, Q. cbn [length]. specialize (Le l). lia.
  - specialize (IH I). specialize (H x). destruct (q x); [rewrite (H eq_refl)|destruct (p x)]; cbn [length]; lia.
Qed.
Lemma outs_len : forall l h, (length (outs h l) <= length l)%nat.
Proof. induction l as [|o l IH]; intro h; cbn [outs length]; [lia|]. specialize (IH (h + 1)). rewrite app_length. destruct o; cbn [length]; lia. Qed.
Lemma out_gmax g mon gl : ginv lossy gmax maxs g mon gl -> (length (cm_out mon) <= gmax)%nat.
Proof. intro G. pose proof (proj1 (gi_win _ _ _ _ _ _ G)) as Jw. rewrite (j_out _ _ _ _ Jw). pose proof (outs_len gl (w_head (g_win g))). pose proof (rp_live _ _ _ (j_rep _ _ _ _ Jw)). lia. Qed.
Lemma mark_unremoved s g i p : (unremoved (upd_done s g i p) <= unremoved s + 1)%nat.
Proof.
  unfold unremoved. pose proof (filt_le (fun j => is_done s j && negb (is_removed s j))%bool (fun j => is_done (upd_done s g i p) j && negb (is_removed (upd_done s g i p) j))%bool i Nat.eq_dec) as F.
  specialize (F ltac:(intros j Ne H; unfold is_done, is_removed in *; cbn [x_done x_removed upd_done] in H; apply andb_true_iff in H as [H1 H2]; apply andb_true_iff; split; [|exact H2];
     destruct (Nat.lt_ge_cases j (length (x_done s))) as [L|L]; [|rewrite nth_overflow in H1 by (rewrite upd_length; exact L); discriminate];
     destruct (nth_error (x_done s) j) as [b|] eqn:E; [|apply nth_error_None in E; lia]; rewrite (nth_error_nth _ _ _ E); assert (E2 : nth_error (upd (x_done s) i true) j = Some b) by (now rewrite upd_other); rewrite (nth_error_nth _ _ _ E2) in H1; exact H1) (seq 0 n) (seq_NoDup _ _)).
  destruct (in_dec Nat.eq_dec i (seq 0 n)); lia.
Qed.
Definition rounds : nat := stepw * (4 * n + 6).
Lemma rwork_step tr s l s' ev : rinv tr s -> rcase capd capf s l s' ev -> if on_its_own l then (rwork s' < rwork s)%nat else if brings l then (rwork s' <= rwork s + rounds)%nat else (rwork s' <= rwork s)%nat.
Proof.
  intros R C. assert (Ln := members_len _ _ (r_g _ _ R)). destruct (reach_ginv _ _ (r_g _ _ R)) as (mon & gl & M & G). pose proof (r_stop _ _ R) as So. unfold stop_ok in So.
  assert (K3 : (kK = gmax + 3)%nat) by reflexivity. assert (Rn : (n + 2 <= raise)%nat) by (unfold raise; lia). assert (KR : (kK * (n + 2) <= kK * raise)%nat) by (apply Nat.mul_le_mono_l; exact Rn). assert (SW : (stepw = kK * raise + 2)%nat) by reflexivity.
  assert (RD : (stepw <= rounds)%nat) by (unfold rounds; nia). assert (KN : (kK * (n + 2) = kK * (n + 1) + kK)%nat) by lia.
  assert (IW : forall gll g e, g_step (x_g s) gll = Ok g e -> internal gll = true -> (kK * work g + kK <= kK * work (x_g s))%nat).
  { intros gll g e S Il. pose proof (internal_work _ _ _ _ _ _ _ _ _ G Il S). nia. }
  assert (SWk : forall i g e, g_step (x_g s) (LStop i) = Ok g e -> (kK * work g <= kK * work (x_g s) + kK * (n + 1))%nat).
  { intros i g e S. pose proof (proj1 (stop_work _ _ _ _ _ _ _ _ _ n G (eq_sym Ln) S)). nia. }
  unfold rwork. destruct C as [l gll g e Q W _ _ S Lb|l i p g e U Dn S Lp|i g e U Hs S|g e Hs Lo S|i m h k g e Hf Hm Hp S|i m g e Hf Hm A Nd S|i m Hf Hm A Nd|i m acc g e Hf Hm S
    |i Q D Nr|i id ids acc v f Hf Fr|i id ids acc Hf Fr Fs|i c out Hf Ds|i c out Hf Ds Lt|Hs|Hs|Hs Lo|i Hs Li U D|i b Hs Li|i Hs Q|i Hs Q D|v Mi Fs Lt|v Mi|c d Da|b];
    cbn [on_its_own brings x_g x_hold x_stop upd_g upd_done upd_stop upd_removed upd_free upd_data upd_fin].
  - change (unremoved (upd_g s g (x_hold s))) with (unremoved s). destruct l as [i id|i id|i|i j|i|i| | |i| | |v| |b]; cbn [on_its_own brings]; try contradiction.
    + subst gll. pose proof (proj1 (get_work _ _ _ _ _ _ _ _ _ _ n G (eq_sym Ln) S)). assert (kK * work g <= kK * work (x_g s) + kK * raise)%nat by (unfold raise in *; nia). lia.
    + subst gll. cbn [g_step] in S. destruct (nth_error (g_members (x_g s)) i) as [m|]; [|discriminate]. destruct (mb_pc m); try discriminate. destruct (get_const _ _) as [[c|]|]; try discriminate. destruct (_ && _)%bool; [|discriminate]. injection S as <- <-. lia.
    + subst gll. specialize (IW _ _ _ S eq_refl). lia.
    + destruct Lb as [-> _]. specialize (IW _ _ _ S eq_refl). lia.
    + subst gll. pose proof (spur_work _ _ _ _ S). assert (kK * work g <= kK * work (x_g s) + kK)%nat by nia. lia.
  - pose proof (mark_unremoved s g i p) as Mk. specialize (SWk _ _ _ S). destruct Lp as [[-> ->]|(-> & Hs & ->)]; cbn [on_its_own brings]; [lia|]. rewrite Hs. cbn [stages]. nia.
  - change (unremoved (upd_stop (upd_g s g (x_hold s)) (x_dstop s) (x_fstop s) (SIn i false))) with (unremoved s). specialize (SWk _ _ _ S). rewrite Hs. cbn [stages]. nia.
  - change (unremoved (upd_stop (upd_g s g (x_hold s)) (x_dstop s) (x_fstop s) (SMem 0 false))) with (unremoved s). pose proof (post_work _ _ _ S) as Pw. rewrite Ln in Pw. assert (kK * work g <= kK * work (x_g s) + kK * raise)%nat by (unfold raise in *; nia). rewrite Hs. cbn [stages]. nia.
  - change (unremoved (upd_g s g (after i e))) with (unremoved s). specialize (IW _ _ _ S eq_refl). rewrite Hf. pose proof (report_step _ _ _ _ _ _ _ _ Hm Hp S) as Al. pose proof (g_step_ok _ _ _ _ _ _ (LStep i (fun _ => None)) G) as K. rewrite S in K. destruct K as (mon' & gl' & M' & _).
    pose proof (cmon_handover _ _ _ _ M') as H. rewrite Al, app_nil_r in H. apply (f_equal (@length Z)) in H. rewrite app_length, !map_length in H. pose proof (out_gmax _ _ _ G).
    assert (hw (after i e) <= gmax + 2 + length (readies (chunk_events e)))%nat by (unfold after; destruct (readies (chunk_events e)); cbn [hw length]; lia). cbn [hw] in *. lia.
  - change (unremoved (upd_g s g HFree)) with (unremoved s). specialize (IW _ _ _ S eq_refl). rewrite Hf. lia.
  - change (unremoved (upd_g s (x_g s) (HAlloc i (needs (x_g s) i) []))) with (unremoved s). rewrite Hf. cbn [hw].
    assert (length (needs (x_g s) i) <= gmax)%nat.
    { destruct (Z.lt_ge_cases (w_tail (mb_win m) - w_head (g_win (x_g s))) (Z.of_nat gmax)) as [L|L]; [|rewrite (needs_waits _ _ _ _ _ _ G i m Hm A); [cbn; lia|unfold goes; lia]].
      rewrite (needs_goes _ _ _ _ _ _ G i m Hm A L). destruct (room _ _ _ _ _ _ G i m Hm A L) as [Y|Y]; [lia|rewrite Y; cbn; lia]. }
    lia.
  - change (unremoved (upd_g s g HFree)) with (unremoved s). specialize (IW _ _ _ S eq_refl). rewrite Hf. cbn [hw length]. lia.
  - assert (unremoved (upd_removed s i) < unremoved s)%nat; [|lia]. unfold unremoved. assert (Li : (i < n)%nat) by (apply quiet_facts in Q as (m & Hm & _); rewrite <- Ln; apply nth_error_Some; congruence).
    assert (Rm : forall j, is_removed (upd_removed s i) j = (Nat.eqb j i || is_removed s j)%bool) by (intro j; unfold is_removed; cbn [x_removed upd_removed]; apply is_done_upd; rewrite (proj2 (r_len _ _ R)); exact Li).
    apply (filt_lt _ _ i).
    + intros j H. apply andb_true_iff in H as [H1 H2]. rewrite Rm in H2. apply negb_true_iff, orb_false_iff in H2 as [_ H2]. apply andb_true_iff. split; [exact H1|now rewrite H2].
    + now rewrite D, Nr.
    + rewrite Rm, Nat.eqb_refl. apply andb_false_r.
    + apply in_seq. lia.
  - change (unremoved (upd_free s (HAlloc i ids (acc ++ [(id, Some v)])) f (x_mine s))) with (unremoved s). rewrite Hf. cbn [hw length]. lia.
  - change (unremoved (upd_free s (HAlloc i ids (acc ++ [(id, None)])) [] (x_mine s))) with (unremoved s). rewrite Hf. cbn [hw length]. lia.
  - match goal with |- context [unremoved ?x] => change (unremoved x) with (unremoved s) end. rewrite Hf. destruct out; cbn [hw length]; lia.
  - match goal with |- context [unremoved ?x] => change (unremoved x) with (unremoved s) end. rewrite Hf. destruct out; cbn [hw length]; lia.
  - change (unremoved (upd_stop s true (x_fstop s) SRing)) with (unremoved s). rewrite Hs. cbn [stages]. unfold rounds. nia.
  - change (unremoved (upd_stop s (x_dstop s) true SPost)) with (unremoved s). rewrite Hs. cbn [stages]. nia.
  - change (unremoved (upd_stop s (x_dstop s) (x_fstop s) (SMem 0 false))) with (unremoved s). rewrite Hs. cbn [stages]. nia.
  - change (unremoved (upd_stop s (x_dstop s) (x_fstop s) (SMem (S i) false))) with (unremoved s). rewrite Hs in So |- *. destruct So as (_ & _ & L & _). rewrite Ln in Li. cbn [stages]. replace (n - i)%nat with (S (n - S i)) by lia. nia.
  - change (unremoved (upd_fin s)) with (unremoved s). rewrite Hs. cbn [stages]. destruct b; nia.
  - change (unremoved (upd_stop s (x_dstop s) (x_fstop s) (SMem i true))) with (unremoved s). rewrite Hs. cbn [stages]. nia.
  - change (unremoved (upd_stop s (x_dstop s) (x_fstop s) (SMem (S i) false))) with (unremoved s). rewrite Hs in So |- *. destruct So as (_ & _ & L & _). cbn [stages]. replace (n - i)%nat with (S (n - S i)) by lia. nia.
  - change (unremoved (upd_free s (x_hold s) (x_free s ++ [v]) (remove1 v (x_mine s)))) with (unremoved s). lia.
  - lia.
  - match goal with |- context [unremoved (upd_data ?a ?b ?c ?d ?e)] => change (unremoved (upd_data a b c d e)) with (unremoved s) end. lia.
  - match goal with |- context [unremoved (upd_stop ?a ?b ?c ?d)] => change (unremoved (upd_stop a b c d)) with (unremoved s) end. lia.
Qed.


Lemma rwork_run : forall ls tr s s' ev, rexec capd capf (rg_new lossy gmax maxs chunks) tr s -> rrun capd capf s ls = Some (s', ev) -> (count on_its_own ls + rwork s' <= rwork s + rounds * count brings ls)%nat.
Proof.
  induction ls as [|l ls IH]; intros tr s s' ev X Hr; cbn [rrun] in Hr.
  - injection Hr as <- <-. unfold count. cbn. lia.
  - destruct (rstep capd capf s l) as [| |s1 e1] eqn:S; try discriminate. destruct (rrun capd capf s1 ls) as [[s2 e2]|] eqn:E; [|discriminate]. injection Hr as <- <-.
    pose proof (rwork_step _ _ _ _ _ (rinv_exec _ _ X) (rcases _ _ _ _ _ _ S)) as W. specialize (IH _ _ _ _ (rx_step _ _ _ _ _ _ _ _ X S) E). unfold count in *. cbn [filter]. destruct l; cbn [on_its_own brings length] in *; nia.
Qed.
(** The last stream to end stops the data ring. *)
Lemma ended_stops tr s : rexec capd capf (rg_new lossy gmax maxs chunks) tr s -> all_removed s -> x_dstop s = true.
Proof.
  assert (Np : (0 < n)%nat) by (destruct Gok as (_ & _ & H); destruct maxs; [congruence|cbn; lia]).
  induction 1 as [|tr s l s' ev X IH S]; intro A.
  - specialize (A 0%nat Np). unfold is_removed in A. cbn [x_removed rg_new] in A. now rewrite nth_repeat in A.
  - pose proof (rinv_exec _ _ X) as R. destruct (rcases _ _ _ _ _ _ S); cbn [x_dstop upd_g upd_done upd_stop upd_removed upd_free upd_data upd_fin]; try (apply IH; exact A); auto.
    + apply orb_true_iff. right. apply Nat.eqb_eq. pose proof (r_prod _ _ R) as Rp. destruct (r_len _ _ R) as [_ Rl].
      assert (Li : (i < length (x_removed s))%nat) by (apply quiet_facts in H as (m & Hm & _); rewrite Rl, <- (members_len _ _ (r_g _ _ R)); apply nth_error_Some; congruence).
      assert (E : nth_error (x_removed s) i = Some false) by (unfold is_removed in H1; rewrite <- H1; apply nth_error_nth'; exact Li).
      pose proof (sumw_upd (fun b : bool => if b then 0 else 1)%nat (x_removed s) i false true E) as Y. cbn in Y. rewrite Rp. replace (sumw (fun b : bool => if b then 0%nat else 1%nat) (upd (x_removed s) i true)) with 0%nat in Y; [lia|]. symmetry. apply sumw_zero.
      intros j b Hb. assert (Lj : (j < n)%nat) by (rewrite <- Rl, <- (upd_length (x_removed s) i true); apply nth_error_Some; congruence). specialize (A j Lj). unfold is_removed in A. cbn [x_removed upd_removed] in A. rewrite (nth_error_nth _ _ _ Hb) in A. now subst b.
    + rewrite IH by exact A. reflexivity.
Qed.

End Inv.
