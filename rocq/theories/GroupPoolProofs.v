(** Invariants of a group with its threads. *)
From Coq Require Import ZArith List Bool Lia Arith.
From Verif Require Import Base ConcBase ChunkModel ChunkSpec ChunkProofs GroupModel GroupProofs GroupProps GroupPoolModel.
Import ListNotations.
Open Scope Z_scope.

(** *** What a step of a member does to the others, and to the flushes posted *)
Definition actor (l : glabel) : option nat := match l with LGet i _ | LStep i _ | LFlush i _ | LStop i => Some i | _ => None end.
Definition posted (g g' : group) : list Z := if g_last g' =? g_last g then [] else [g_last g'].
Definition after (l : glabel) (p : list Z) : list Z := match l with LFlush _ j => remove_at j p | _ => p end.
Definition framed (g : group) (i : nat) (l : glabel) (g' : group) : Prop :=
  length (g_members g') = length (g_members g) /\ g_lossy g' = g_lossy g /\
  forall j m, nth_error (g_members g) j = Some m -> exists m', nth_error (g_members g') j = Some m' /\
    (j <> i -> (mb_pc m = PIdle <-> mb_pc m' = PIdle)) /\
    mb_pending m' = (if Nat.eqb j i then after l (mb_pending m) else mb_pending m) ++ posted g g'.

Lemma wake_pc m : mb_pc m = PIdle <-> mb_pc (wake m) = PIdle.
Proof. unfold wake. destruct (mb_pc m) eqn:E; cbn [set_pc mb_pc]; rewrite ?E; split; intro H; try discriminate; auto. Qed.
Lemma wake_pending m : mb_pending (wake m) = mb_pending m.
Proof. unfold wake. now destruct (mb_pc m). Qed.
Lemma posted_same g g' : g_last g' = g_last g -> posted g g' = [].
Proof. intro E. unfold posted. now rewrite E, Z.eqb_refl. Qed.

Lemma framed_set g i m m' l g' : nth_error (g_members g) i = Some m -> g_members g' = upd (g_members g) i m' -> g_last g' = g_last g -> g_lossy g' = g_lossy g ->
  mb_pending m' = after l (mb_pending m) -> framed g i l g'.
Proof.
  intros Hm Em El Eo Ep. split; [now rewrite Em, upd_length|]. split; [exact Eo|]. intros j mj Hj. rewrite Em, nth_upd, (posted_same _ _ El). destruct (Nat.eqb_spec j i) as [->|N].
  - assert (i < length (g_members g))%nat by (apply nth_error_Some; congruence). destruct (Nat.ltb_spec i (length (g_members g))); [|lia]. exists m'. split; [reflexivity|]. split; [congruence|].
    rewrite app_nil_r, Ep. congruence.
  - exists mj. split; [exact Hj|]. split; [tauto|]. now rewrite app_nil_r.
Qed.
Lemma framed_take g0 g i m id alloc g' e l : length (g_members g) = length (g_members g0) -> g_lossy g = g_lossy g0 ->
  (forall j mj, nth_error (g_members g0) j = Some mj -> exists m1, nth_error (g_members g) j = Some m1 /\ (j <> i -> (mb_pc mj = PIdle <-> mb_pc m1 = PIdle)) /\ mb_pending m1 = mb_pending mj ++ posted g0 g) ->
  nth_error (g_members g) i = Some m -> (forall p, after l p = p) -> take_chunk g i m id alloc = Ok g' e -> framed g0 i l g'.
Proof.
  intros L O F Hm A S. unfold take_chunk in S. destruct (get_chunk _ _ _) as [[[w' x] o]|]; [|discriminate]. destruct (existsb is_ready x); [discriminate|]. destruct (gc_store (mb_win m) o) as [mw|]; [|discriminate]. injection S as <- <-.
  split; [cbn [g_members]; now rewrite upd_length|]. split; [exact O|]. intros j mj Hj. destruct (F j mj Hj) as (m1 & H1 & H2 & H3). cbn [g_members]. rewrite nth_upd.
  assert (P : posted g0 {| g_win := w'; g_heads := g_heads g; g_last := g_last g; g_lossy := g_lossy g; g_members := upd (g_members g) i (set_win m mw (PLoop id)) |} = posted g0 g) by reflexivity.
  rewrite P. destruct (Nat.eqb_spec j i) as [->|N].
  - assert (i < length (g_members g))%nat by (apply nth_error_Some; congruence). destruct (Nat.ltb_spec i (length (g_members g))); [|lia]. eexists. split; [reflexivity|]. split; [congruence|].
    rewrite A. cbn [set_win mb_pending]. congruence.
  - exists m1. auto.
Qed.
Lemma frame g l g' e i : actor l = Some i -> g_step g l = Ok g' e -> framed g i l g'.
Proof.
  intros A S. destruct l as [i0 id|i0 alloc|i0 j|i0| |i0|i0 id]; cbn [actor] in A; try discriminate; injection A as ->; cbn [g_step] in S;
    (destruct (nth_error (g_members g) i) as [m|] eqn:Hm; [|discriminate]).
  - destruct (mb_pc m); try discriminate. destruct (_ && _); [|discriminate]. destruct (_ <=? id).
    + destruct (gc_jump _ _) as [[w' x]|]; [|discriminate]. destruct (report_then _ _) as [p|]; [|discriminate]. injection S as <- <-. eapply framed_set; try exact Hm; reflexivity.
    + injection S as <- <-. split; [reflexivity|]. split; [reflexivity|]. intros j mj Hj. exists mj. split; [exact Hj|]. split; [tauto|]. rewrite posted_same by reflexivity. rewrite app_nil_r. now destruct (Nat.eqb j i).
  - unfold member_step in S. destruct (mb_pc m) as [|id|h k|id|id t [|]] eqn:Hpc; try discriminate.
    + destruct (_ <=? id).
      * destruct (gc_room _) as [[w' x]|]; [|discriminate]. destruct (report_then _ _) as [p|]; [|discriminate]. injection S as <- <-. eapply framed_set; try exact Hm; reflexivity.
      * destruct (nth_error (w_slots _) _); [|discriminate]. injection S as <- <-. eapply framed_set; try exact Hm; reflexivity.
    + unfold stream_head_updated in S. destruct (nth_error (g_heads g) i) as [old|]; [|discriminate]. destruct (old <? h); [|discriminate]. destruct (w_head (g_win g) =? old).
      * destruct (flush_until _ _) as [[w' x]|]; [|discriminate]. cbn [g_members] in S. destruct (reported x) as [|r rs].
        -- rewrite Hm in S. injection S as <- <-. eapply framed_set; try exact Hm; reflexivity.
        -- rewrite nth_error_map, Hm in S. cbn [option_map] in S. injection S as <- <-. split; [cbn [set_member g_members]; now rewrite upd_length, map_length|]. split; [reflexivity|].
           intros j mj Hj. rewrite posted_same by reflexivity. cbn [set_member g_members]. rewrite nth_upd, map_length, nth_error_map, Hj. cbn [option_map]. destruct (Nat.eqb_spec j i) as [->|N].
           ++ assert (i < length (g_members g))%nat by (apply nth_error_Some; congruence). destruct (Nat.ltb_spec i (length (g_members g))); [|lia]. eexists. split; [reflexivity|]. split; [congruence|].
              cbn [set_pc mb_pending after]. rewrite wake_pending, app_nil_r. congruence.
           ++ eexists. split; [reflexivity|]. split; [intros _; apply wake_pc|]. rewrite wake_pending, app_nil_r. reflexivity.
      * cbn [g_members] in S. rewrite Hm in S. injection S as <- <-. eapply framed_set; try exact Hm; reflexivity.
    + unfold group_get in S. destruct (_ <=? w_tail (mb_win m)); [|discriminate].
      assert (Same : forall j mj, nth_error (g_members g) j = Some mj -> exists m1, nth_error (g_members g) j = Some m1 /\ (j <> i -> (mb_pc mj = PIdle <-> mb_pc m1 = PIdle)) /\ mb_pending m1 = mb_pending mj ++ posted g g).
      { intros j mj Hj. exists mj. split; [exact Hj|]. split; [tauto|]. rewrite posted_same by reflexivity. now rewrite app_nil_r. }
      destruct (_ <=? u64 (w_tail (mb_win m) - _)); [|eapply (framed_take g g i m id alloc); eauto].
      set (target := u64 (w_tail (mb_win m) - (Z.of_nat (w_max (g_win g)) - 1))) in *.
      destruct (g_lossy g) eqn:Lo; cbn [andb] in S; [destruct (Z.ltb_spec (g_last g) target) as [Lt|Lt]|].
      * match type of S with (if _ then Ok (set_member ?gg _ _) _ else _) = _ => set (g1 := gg) in * end.
        assert (F1 : forall j mj, nth_error (g_members g) j = Some mj -> exists m1, nth_error (g_members g1) j = Some m1 /\ (j <> i -> (mb_pc mj = PIdle <-> mb_pc m1 = PIdle)) /\ mb_pending m1 = mb_pending mj ++ posted g g1).
        { intros j mj Hj. exists (post target mj). cbn [g1 g_members]. rewrite nth_error_map, Hj. split; [reflexivity|]. split; [tauto|]. unfold posted. cbn [g1 g_last]. destruct (Z.eqb_spec target (g_last g)); [lia|reflexivity]. }
        destruct (w_head (g_win g) <? target).
        -- injection S as <- <-. split; [cbn [set_member g_members g1]; now rewrite upd_length, map_length|]. split; [cbn; congruence|]. intros j mj Hj. destruct (F1 j mj Hj) as (m1 & A1 & A2 & A3).
           cbn [set_member g_members]. change (posted g (set_member g1 i (set_pc (post target m) (PWait id target false)))) with (posted g g1).
           rewrite nth_upd. destruct (Nat.eqb_spec j i) as [->|N]; [|exists m1; auto].
           assert (i < length (g_members g1))%nat by (apply nth_error_Some; congruence). destruct (Nat.ltb_spec i (length (g_members g1))); [|lia]. eexists. split; [reflexivity|]. split; [congruence|].
           cbn [after set_pc mb_pending]. cbn [g1 g_members] in A1. rewrite nth_error_map, Hm in A1. injection A1 as <-. assert (mj = m) by congruence. subst mj. exact A3.
        -- eapply (framed_take g g1 i (post target m) id alloc); [|cbn; congruence|exact F1| |reflexivity|exact S]; cbn [g1 g_members]; [now rewrite map_length|now rewrite nth_error_map, Hm].
      * match type of S with (if _ then Ok (set_member ?gg _ _) _ else _) = _ => set (g1 := gg) in * end. destruct (w_head (g_win g) <? target).
        -- injection S as <- <-. eapply framed_set; try exact Hm; cbn; auto.
        -- eapply (framed_take g g1 i m id alloc); [reflexivity|cbn; congruence|exact Same|exact Hm|reflexivity|exact S].
      * match type of S with (if _ then Ok (set_member ?gg _ _) _ else _) = _ => set (g1 := gg) in * end. destruct (w_head (g_win g) <? target).
        -- injection S as <- <-. eapply framed_set; try exact Hm; cbn; auto.
        -- eapply (framed_take g g1 i m id alloc); [reflexivity|cbn; congruence|exact Same|exact Hm|reflexivity|exact S].
    + destruct (_ <? t).
      * injection S as <- <-. eapply framed_set; try exact Hm; reflexivity.
      * eapply (framed_take g g i m id alloc); eauto. intros j mj Hj. exists mj. split; [exact Hj|]. split; [tauto|]. rewrite posted_same by reflexivity. now rewrite app_nil_r.
  - destruct (mb_pc m); try discriminate. destruct (nth_error (mb_pending m) j) as [t|]; [|discriminate]. destruct (flush_until _ _) as [[w' x]|]; [|discriminate]. destruct (report_then _ _) as [p|]; [|discriminate].
    injection S as <- <-. eapply framed_set; try exact Hm; reflexivity.
  - destruct (mb_pc m); try discriminate. destruct (flush_all _ _) as [[w' x]|]; [|discriminate]. destruct (report_then _ _) as [p|]; [|discriminate].
    injection S as <- <-. eapply framed_set; try exact Hm; reflexivity.
Qed.

(** *** Counting tasks *)
Definition isf (i : nat) (t : Z) (k : task) : nat := match k with TFlush j u => if Nat.eqb j i && (u =? t) then 1 else 0 | _ => 0 end.
Definition held (f : task -> nat) (x : nat * wstate) : nat := match snd x with WIdle => 0 | WLock k | WRun k => f k end.
Definition total (f : task -> nat) (s : pstate) : nat := (sumw (sumw f) (queues s) + sumw (held f) (workers s))%nat.

Lemma enqueue_length p k q : length (enqueue p k q) = length q.
Proof. apply upd_length. Qed.
Lemma enqueue_sum f p k q : (p < length q)%nat -> sumw (sumw f) (enqueue p k q) = (sumw (sumw f) q + f k)%nat.
Proof.
  intro H. unfold enqueue. destruct (nth_error q p) as [x|] eqn:E; [|apply nth_error_None in E; lia]. rewrite (nth_error_nth _ _ [] E).
  pose proof (sumw_upd (sumw f) q p x (x ++ [k]) E) as U. rewrite sumw_app in U. cbn [sumw] in U. lia.
Qed.
Lemma enqueue_nth p k q p' q' : (p < length q)%nat -> nth_error (enqueue p k q) p' = Some q' -> exists q0, nth_error q p' = Some q0 /\ q' = if Nat.eqb p' p then q0 ++ [k] else q0.
Proof.
  intros L H. unfold enqueue in H. rewrite nth_upd in H. destruct (Nat.eqb_spec p' p) as [->|N]; [|eauto]. destruct (Nat.ltb_spec p (length q)); [|lia]. injection H as <-.
  destruct (nth_error q p) as [x|] eqn:E; [|apply nth_error_None in E; lia]. exists x. split; [reflexivity|]. now rewrite (nth_error_nth _ _ [] E).
Qed.
Lemma post_all_length t : forall home i q, length (post_all i home t q) = length q.
Proof. induction home as [|p home IH]; intros i q; cbn [post_all]; [reflexivity|]. now rewrite IH, enqueue_length. Qed.
Lemma post_all_sum f t : forall home i q, Forall (fun p => p < length q)%nat home ->
  sumw (sumw f) (post_all i home t q) = (sumw (sumw f) q + sumw (fun j => f (TFlush j t)) (seq i (length home)))%nat.
Proof.
  induction home as [|p home IH]; intros i q F; cbn [post_all length seq sumw]; [lia|]. apply Forall_cons_iff in F as [F1 F2]. rewrite IH by now rewrite enqueue_length. rewrite enqueue_sum by exact F1. lia.
Qed.
Lemma post_all_in t : forall home i q p q' k, Forall (fun p => p < length q)%nat home -> nth_error (post_all i home t q) p = Some q' -> In k q' ->
  (exists q0, nth_error q p = Some q0 /\ In k q0) \/ exists j, k = TFlush (i + j) t /\ nth_error home j = Some p.
Proof.
  induction home as [|p0 home IH]; intros i q p q' k F H I; cbn [post_all] in H; [eauto|]. apply Forall_cons_iff in F as [F1 F2].
  destruct (IH (S i) (enqueue p0 (TFlush i t) q) p q' k ltac:(now rewrite enqueue_length) H I) as [(q0 & H0 & I0)|(j & -> & Hj)].
  - destruct (enqueue_nth _ _ _ _ _ F1 H0) as (q1 & H1 & ->). destruct (Nat.eqb_spec p p0) as [->|N]; [|eauto]. apply in_app_or in I0 as [I0|[<-|[]]]; [eauto|]. right. exists 0%nat. rewrite Nat.add_0_r. auto.
  - right. exists (S j). split; [f_equal; lia|exact Hj].
Qed.
Lemma isf_seq i t u : forall n i0, sumw (fun j => isf i t (TFlush j u)) (seq i0 n) = (if Nat.leb i0 i && Nat.ltb i (i0 + n) && Z.eqb u t then 1 else 0)%nat.
Proof.
  induction n as [|n IH]; intro i0; cbn [seq sumw].
  - destruct (Nat.leb_spec i0 i); [|reflexivity]. destruct (Nat.ltb_spec i (i0 + 0)); [lia|reflexivity].
  - rewrite IH. cbn [isf]. destruct (Nat.eqb_spec i0 i); destruct (u =? t); destruct (Nat.leb_spec (S i0) i); destruct (Nat.leb_spec i0 i); destruct (Nat.ltb_spec i (S i0 + n)); destruct (Nat.ltb_spec i (i0 + S n)); cbn; lia.
Qed.
Lemma idx_in t l : In t l -> nth_error l (idx t l) = Some t.
Proof. induction l as [|x l IH]; [intros []|]. intros [->|H]; cbn [idx]; [now rewrite Z.eqb_refl|]. destruct (Z.eqb_spec t x) as [->|N]; [reflexivity|]. cbn [nth_error]. auto. Qed.
Lemma remove_at_count l j t u : nth_error l j = Some t -> (count_occ Z.eq_dec (remove_at j l) u + (if Z.eqb t u then 1 else 0) = count_occ Z.eq_dec l u)%nat.
Proof. intro H. destruct (remove_at_split _ _ _ H) as (l1 & l2 & -> & E). rewrite E, !count_occ_app. cbn [count_occ]. destruct (Z.eq_dec t u); destruct (Z.eqb_spec t u); lia. Qed.

(** Effects of updating one thread *)
Lemma total_worker f s w p x y g q : nth_error (workers s) w = Some (p, x) ->
  (total f {| pg := g; queues := q; workers := upd (workers s) w (p, y) |} + held f (p, x) = sumw (sumw f) q + sumw (held f) (workers s) + held f (p, y))%nat.
Proof. intro H. unfold total. cbn [queues workers]. pose proof (sumw_upd (held f) (workers s) w (p, x) (p, y) H). lia. Qed.
Lemma upd_worker (l : list (nat * wstate)) w x y w' z : nth_error l w = Some x -> nth_error (upd l w y) w' = Some z -> (w' = w /\ z = y) \/ (w' <> w /\ nth_error l w' = Some z).
Proof.
  intros H E. rewrite nth_upd in E. destruct (Nat.eqb_spec w' w) as [->|N]; [|auto]. assert (w < length l)%nat by (apply nth_error_Some; congruence). destruct (Nat.ltb_spec w (length l)); [|lia]. injection E as <-. auto.
Qed.
Lemma upd_worker_same (l : list (nat * wstate)) w x y : nth_error l w = Some x -> nth_error (upd l w y) w = Some y.
Proof. intro H. rewrite nth_upd, Nat.eqb_refl. assert (w < length l)%nat by (apply nth_error_Some; congruence). destruct (Nat.ltb_spec w (length l)); [reflexivity|lia]. Qed.
Lemma upd_worker_other (l : list (nat * wstate)) w w' y : w' <> w -> nth_error (upd l w y) w' = nth_error l w'.
Proof. intro H. rewrite nth_upd. destruct (Nat.eqb_spec w' w); [contradiction|reflexivity]. Qed.


(** *** The invariant *)
Section Inv.
Context (home : list nat) (nq : nat) (Hhome : Forall (fun p => 0 < p < nq)%nat home) (Hnq : (0 < nq)%nat).
(** A task is in the queue of its member; the user's only stops streams. *)
Definition at_ (p : nat) (k : task) : Prop :=
  match k with
  | THandle i ids fin => valid ids = true /\ (nth_error home i = Some p \/ p = 0%nat /\ (i < length home)%nat)
  | TFlush i _ => nth_error home i = Some p
  end.
Record pinv (s : pstate) : Prop := {
  v_nq : length (queues s) = nq;
  v_len : length (g_members (pg s)) = length home;
  v_at : forall p q k, nth_error (queues s) p = Some q -> In k q -> at_ p k;
  v_atw : forall w p k, nth_error (workers s) w = Some (p, WLock k) \/ nth_error (workers s) w = Some (p, WRun k) -> at_ p k;
  v_one : forall w1 w2 p1 p2 k1 k2, nth_error (workers s) w1 = Some (p1, WRun k1) -> nth_error (workers s) w2 = Some (p2, WRun k2) -> who k1 = who k2 -> w1 = w2;
  v_busy : forall i m, nth_error (g_members (pg s)) i = Some m -> mb_pc m <> PIdle -> exists w p ids fin, nth_error (workers s) w = Some (p, WRun (THandle i ids fin));
  v_pend : forall i m t, nth_error (g_members (pg s)) i = Some m -> count_occ Z.eq_dec (mb_pending m) t = total (isf i t) s }.

Lemma home_lt i p : nth_error home i = Some p -> (0 < p < nq)%nat /\ (i < length home)%nat.
Proof. intro H. split; [|apply nth_error_Some; congruence]. rewrite Forall_forall in Hhome. apply Hhome. eapply nth_error_In; eauto. Qed.
Lemma at_who p k : at_ p k -> (who k < length home)%nat.
Proof. destruct k as [i ids fin|i t]; cbn; [intros [_ [H|[_ H]]]; [now apply home_lt in H|exact H]|intro H; now apply home_lt in H]. Qed.
Lemma home_q s : length (queues s) = nq -> Forall (fun p => p < length (queues s))%nat home.
Proof. intro E. rewrite E. eapply Forall_impl; [|exact Hhome]. cbn. intros; lia. Qed.

(** A thread with the lock takes a step of the group. *)
Lemma pinv_do s w p k i ids fin l g' e : pinv s -> nth_error (workers s) w = Some (p, WRun k) -> who k = i -> at_ p (THandle i ids fin) -> actor l = Some i -> g_step (pg s) l = Ok g' e ->
  (forall m t, nth_error (g_members (pg s)) i = Some m -> count_occ Z.eq_dec (after l (mb_pending m)) t + isf i t k = count_occ Z.eq_dec (mb_pending m) t)%nat ->
  pinv {| pg := g'; queues := if g_last g' =? g_last (pg s) then queues s else post_all 0 home (g_last g') (queues s); workers := upd (workers s) w (p, WRun (THandle i ids fin)) |}.
Proof.
  intros V Hw Wk At Ac S C. destruct (frame _ _ _ _ _ Ac S) as (L & _ & F). pose proof (home_q s (v_nq _ V)) as Hq.
  assert (B : forall j m', nth_error (g_members g') j = Some m' -> exists m, nth_error (g_members (pg s)) j = Some m /\ (j <> i -> (mb_pc m = PIdle <-> mb_pc m' = PIdle)) /\
     mb_pending m' = (if Nat.eqb j i then after l (mb_pending m) else mb_pending m) ++ posted (pg s) g').
  { intros j m' Hj. assert (j < length (g_members g'))%nat by (apply nth_error_Some; congruence). destruct (nth_error (g_members (pg s)) j) as [m|] eqn:Em; [|apply nth_error_None in Em; lia].
    destruct (F j m Em) as (m2 & H2 & H3 & H4). assert (m2 = m') by congruence. subst m2. exists m. auto. }
  constructor; cbn [pg queues workers].
  - destruct (_ =? _); rewrite ?post_all_length; apply V.
  - rewrite L. apply V.
  - intros q0 q k0 Hq0 I. destruct (_ =? _); [eapply (v_at _ V); eauto|]. destruct (post_all_in _ _ _ _ _ _ _ Hq Hq0 I) as [(q1 & H1 & H2)|(j & -> & Hj)]; [eapply (v_at _ V); eauto|exact Hj].
  - intros w' p' k0 [H|H]; destruct (upd_worker _ _ _ _ _ _ Hw H) as [[-> E]|[N E]]; try discriminate; try (injection E as -> ->; exact At); eapply (v_atw _ V); eauto.
  - intros w1 w2 p1 p2 k1 k2 H1 H2 E. destruct (upd_worker _ _ _ _ _ _ Hw H1) as [[-> E1]|[N1 E1]]; destruct (upd_worker _ _ _ _ _ _ Hw H2) as [[-> E2]|[N2 E2]]; [reflexivity| | |eapply (v_one _ V); eauto].
    + injection E1 as -> ->. cbn [who] in E. symmetry. eapply (v_one _ V); [exact E2|exact Hw|congruence].
    + injection E2 as -> ->. cbn [who] in E. eapply (v_one _ V); [exact E1|exact Hw|congruence].
  - intros j m' Hj Pc. destruct (B j m' Hj) as (m & Hm & X1 & X2). destruct (Nat.eq_dec j i) as [->|N].
    + exists w, p, ids, fin. eapply upd_worker_same; eauto.
    + destruct (v_busy _ V j m Hm) as (w0 & p0 & ids0 & fin0 & H0); [rewrite X1 by exact N; exact Pc|]. exists w0, p0, ids0, fin0. rewrite upd_worker_other; [exact H0|]. intros ->. rewrite Hw in H0. injection H0 as -> ->. cbn in Wk. congruence.
  - intros j m' t Hj. destruct (B j m' Hj) as (m & Hm & _ & X2). rewrite X2, count_occ_app.
    pose proof (total_worker (isf j t) s w p (WRun k) (WRun (THandle i ids fin)) g' (if g_last g' =? g_last (pg s) then queues s else post_all 0 home (g_last g') (queues s)) Hw) as T.
    change (held (isf j t) (p, WRun (THandle i ids fin))) with 0%nat in T. change (held (isf j t) (p, WRun k)) with (isf j t k) in T.
    assert (Q : sumw (sumw (isf j t)) (if g_last g' =? g_last (pg s) then queues s else post_all 0 home (g_last g') (queues s)) = (sumw (sumw (isf j t)) (queues s) + count_occ Z.eq_dec (posted (pg s) g') t)%nat).
    { unfold posted. destruct (_ =? _); [cbn; lia|]. rewrite post_all_sum by exact Hq. rewrite isf_seq. cbn [count_occ]. assert (j < length home)%nat by (rewrite <- (v_len _ V); apply nth_error_Some; congruence).
      destruct (Nat.ltb_spec j (0 + length home)); [|lia]. destruct (Z.eqb_spec (g_last g') t); destruct (Z.eq_dec (g_last g') t); cbn; lia. }
    pose proof (v_pend _ V j m t Hm) as P. unfold total in P. destruct (Nat.eqb_spec j i) as [->|N].
    + pose proof (C m t Hm). lia.
    + assert (isf j t k = 0)%nat by (destruct k as [|i' u]; [reflexivity|]; cbn in Wk |- *; destruct (Nat.eqb_spec i' j); [congruence|reflexivity]). lia.
Qed.

(** A step that leaves the group and the total of the tasks alone *)
Lemma pinv_set s w p x y q : pinv s -> nth_error (workers s) w = Some (p, x) -> length q = nq ->
  (forall p' q' k, nth_error q p' = Some q' -> In k q' -> at_ p' k) -> (forall k, y = WLock k \/ y = WRun k -> at_ p k) ->
  (forall k, y = WRun k -> forall w2 p2 k2, nth_error (workers s) w2 = Some (p2, WRun k2) -> who k2 <> who k) ->
  (forall k, x = WRun k -> y = WIdle /\ forall m, nth_error (g_members (pg s)) (who k) = Some m -> mb_pc m = PIdle) ->
  (forall i t, sumw (sumw (isf i t)) q + held (isf i t) (p, y) = sumw (sumw (isf i t)) (queues s) + held (isf i t) (p, x))%nat ->
  pinv {| pg := pg s; queues := q; workers := upd (workers s) w (p, y) |}.
Proof.
  intros V Hw Lq Aq Ay One Pc C. constructor; cbn [pg queues workers]; [exact Lq|apply V|exact Aq| | | |].
  - intros w' p' k [H|H]; destruct (upd_worker _ _ _ _ _ _ Hw H) as [[-> E]|[N E]]; try (injection E as -> <-; apply Ay; auto); eapply (v_atw _ V); eauto.
  - intros w1 w2 p1 p2 k1 k2 H1 H2 E. destruct (upd_worker _ _ _ _ _ _ Hw H1) as [[-> E1]|[N1 E1]]; destruct (upd_worker _ _ _ _ _ _ Hw H2) as [[-> E2]|[N2 E2]]; [reflexivity| | |eapply (v_one _ V); eauto].
    + injection E1 as -> <-. exfalso. exact (One k1 eq_refl _ _ _ E2 (eq_sym E)).
    + injection E2 as -> <-. exfalso. exact (One k2 eq_refl _ _ _ E1 E).
  - intros i m Hm P. destruct (v_busy _ V i m Hm P) as (w0 & p0 & ids & fin & H0). destruct (Nat.eq_dec w0 w) as [->|N].
    + rewrite Hw in H0. injection H0 as -> ->. destruct (Pc _ eq_refl) as [_ Q]. elim P. exact (Q m Hm).
    + exists w0, p0, ids, fin. now rewrite upd_worker_other.
  - intros i m t Hm. pose proof (total_worker (isf i t) s w p x y (pg s) q Hw). pose proof (C i t). pose proof (v_pend _ V i m t Hm) as P. unfold total in P. lia.
Qed.
(** Tasks are added to the queues, and posted flushes to the members. *)
Lemma pinv_more s g' q : pinv s -> length (g_members g') = length (g_members (pg s)) -> length q = nq ->
  (forall p' q' k, nth_error q p' = Some q' -> In k q' -> at_ p' k) ->
  (forall i m', nth_error (g_members g') i = Some m' -> exists m, nth_error (g_members (pg s)) i = Some m /\ (mb_pc m = PIdle <-> mb_pc m' = PIdle) /\
     forall t, count_occ Z.eq_dec (mb_pending m') t + sumw (sumw (isf i t)) (queues s) = count_occ Z.eq_dec (mb_pending m) t + sumw (sumw (isf i t)) q)%nat ->
  pinv {| pg := g'; queues := q; workers := workers s |}.
Proof.
  intros V L Lq Aq B. constructor; cbn [pg queues workers]; [exact Lq|rewrite L; apply V|exact Aq|apply V|apply V| |].
  - intros i m' Hm P. destruct (B i m' Hm) as (m & H & E & _). apply (v_busy _ V i m H). tauto.
  - intros i m' t Hm. destruct (B i m' Hm) as (m & H & _ & E). pose proof (v_pend _ V i m t H) as P. specialize (E t). unfold total in P |- *. cbn [queues workers]. lia.
Qed.
Lemma stops_no_flush i t n : sumw (isf i t) (stops n) = 0%nat.
Proof. unfold stops. apply sumw_zero. intros j x H. apply nth_error_In in H. apply in_flat_map in H as (a & _ & [<-|[<-|[]]]); reflexivity. Qed.
Lemma stop_queue s : pinv s -> let q := upd (queues s) 0 (nth 0 (queues s) [] ++ stops (length (g_members (pg s)))) in
  length q = nq /\ (forall p' q' k, nth_error q p' = Some q' -> In k q' -> at_ p' k) /\ (forall f, sumw (sumw f) q = sumw (sumw f) (queues s) + sumw f (stops (length (g_members (pg s)))))%nat.
Proof.
  intros V q. assert (L0 : (0 < length (queues s))%nat) by (rewrite (v_nq _ V); exact Hnq). destruct (nth_error (queues s) 0) as [q0|] eqn:E; [|apply nth_error_None in E; lia]. subst q. rewrite (nth_error_nth _ _ [] E). split; [rewrite upd_length; apply V|]. split.
  - intros p' q' k H I. rewrite nth_upd in H. destruct (Nat.eqb_spec p' 0) as [->|N]; [|eapply (v_at _ V); eauto]. destruct (Nat.ltb_spec 0 (length (queues s))); [|lia]. injection H as <-.
    apply in_app_or in I as [I|I]; [eapply (v_at _ V); eauto|]. unfold stops in I. apply in_flat_map in I as (a & Ha & Hk). apply in_seq in Ha. assert (A : (a < length home)%nat) by (rewrite <- (v_len _ V); lia).
    destruct Hk as [<-|[<-|[]]]; (split; [reflexivity|]; right; auto).
  - intro f. pose proof (sumw_upd (sumw f) (queues s) 0 q0 (q0 ++ stops (length (g_members (pg s)))) E) as U. rewrite sumw_app in U. lia.
Qed.

Lemma pinv_step s l s' e : pinv s -> pstep home s l = POk s' e -> pinv s'.
Proof.
  intros V S. destruct l as [i ids fin|w|w|w alloc| |i]; cbn [pstep] in S.
  - destruct (nth_error home i) as [p|] eqn:Hp; [|discriminate]. destruct (valid ids) eqn:Va; [|discriminate]. injection S as <- <-. destruct (home_lt _ _ Hp) as [Lp _]. assert (Lq : (p < length (queues s))%nat) by (rewrite (v_nq _ V); lia).
    apply pinv_more; [exact V|reflexivity|rewrite enqueue_length; apply V| |].
    + intros p' q' k H I. destruct (enqueue_nth _ _ _ _ _ Lq H) as (q0 & H0 & ->). destruct (Nat.eqb_spec p' p) as [->|N]; [|eapply (v_at _ V); eauto].
      apply in_app_or in I as [I|[<-|[]]]; [eapply (v_at _ V); eauto|]. split; auto.
    + intros j m Hm. exists m. split; [exact Hm|]. split; [tauto|]. intro t. rewrite enqueue_sum by exact Lq. cbn [isf]. lia.
  - destruct (nth_error (workers s) w) as [[p [|k|k]]|] eqn:Hw; try discriminate. destruct (nth_error (queues s) p) as [[|k q]|] eqn:Hq; try discriminate. injection S as <- <-.
    eapply pinv_set; [exact V|exact Hw|rewrite upd_length; apply V| | | | |].
    + intros p' q' k' H I. rewrite nth_upd in H. destruct (Nat.eqb_spec p' p) as [->|N]; [|eapply (v_at _ V); eauto]. destruct (_ <? _)%nat; [|discriminate]. injection H as <-. eapply (v_at _ V); [exact Hq|now right].
    + intros k' [E|E]; [|discriminate]. injection E as <-. eapply (v_at _ V); [exact Hq|now left].
    + discriminate.
    + discriminate.
    + intros i t. pose proof (sumw_upd (sumw (isf i t)) (queues s) p (k :: q) q Hq) as U. cbn [sumw] in U. cbn [held snd]. lia.
  - destruct (nth_error (workers s) w) as [[p [|k|k]]|] eqn:Hw; try discriminate. destruct (existsb (running (who k)) (workers s)) eqn:Ex; [discriminate|]. injection S as <- <-. unfold set_worker.
    eapply pinv_set; [exact V|exact Hw|apply V|apply V| | | |].
    + intros k' [E|E]; [discriminate|]. injection E as <-. eapply (v_atw _ V); eauto.
    + intros k' E w2 p2 k2 H2 Q. injection E as <-. assert (X : existsb (running (who k)) (workers s) = true).
      { apply existsb_exists. exists (p2, WRun k2). split; [eapply nth_error_In; eauto|]. unfold running. cbn [snd]. now rewrite Q, Nat.eqb_refl. }
      congruence.
    + discriminate.
    + intros i t. reflexivity.
  - destruct (nth_error (workers s) w) as [[p [|k|k]]|] eqn:Hw; try discriminate. pose proof (v_atw _ V w p k (or_intror Hw)) as At. unfold go in S.
    destruct (nth_error (g_members (pg s)) (who k)) as [m|] eqn:Hm; [|discriminate]. destruct k as [i ids fin|i t]; cbn [who] in Hm.
    + assert (D : forall ids' fin' l s1 e1, g_do home s w p (THandle i ids' fin') l = POk s1 e1 -> at_ p (THandle i ids' fin') -> actor l = Some i -> after l = (fun x => x) -> pinv s1).
      { intros ids' fin' l s1 e1 G A1 A2 A3. unfold g_do in G. destruct (g_step (pg s) l) as [| |g' e'] eqn:St; try discriminate. injection G as <- <-. eapply pinv_do; [exact V|exact Hw|reflexivity|exact A1|exact A2|exact St|].
        intros m0 t _. rewrite A3. cbn [isf]. lia. }
      destruct At as [Va At]. destruct (mb_pc m) eqn:Pc; try (eapply D; [exact S| |reflexivity|reflexivity]; split; assumption). destruct ids as [|id r]; [destruct fin|].
      * eapply D; [exact S| |reflexivity|reflexivity]. split; [reflexivity|assumption].
      * injection S as <- <-. unfold set_worker. eapply pinv_set; [exact V|exact Hw|apply V|apply V|intros ? [?|?]; discriminate|discriminate| |].
        -- intros k E. injection E as <-. split; [reflexivity|]. cbn [who]. intros m0 H0. congruence.
        -- intros j t. reflexivity.
      * eapply D; [exact S| |reflexivity|reflexivity]. split; [|assumption]. cbn [valid forallb] in Va. now apply andb_prop in Va.
    + unfold g_do in S. destruct (g_step (pg s) (LFlush i (idx t (mb_pending m)))) as [| |g' e'] eqn:St; try discriminate. injection S as <- <-. eapply (pinv_do _ _ _ _ _ _ _ (LFlush i (idx t (mb_pending m)))); [exact V|exact Hw|reflexivity| |reflexivity|exact St|].
      * split; [reflexivity|]. left. exact At.
      * intros m0 u H0. assert (m0 = m) by congruence. subst m0. cbn [after isf]. rewrite Nat.eqb_refl. cbn [andb].
        assert (I : In t (mb_pending m)).
        { apply (count_occ_In Z.eq_dec). rewrite (v_pend _ V i m t Hm). unfold total. pose proof (sumw_ge (held (isf i t)) _ _ _ Hw) as G. cbn [held snd isf] in G. rewrite Nat.eqb_refl, Z.eqb_refl in G. cbn in G. lia. }
        apply remove_at_count. now apply idx_in.
  - destruct (stop_queue s V) as (L & A & T). destruct (g_lossy (pg s)).
    + injection S as <- <-. apply pinv_more; [exact V|reflexivity|exact L|exact A|]. intros i m Hm. exists m. split; [exact Hm|]. split; [tauto|]. intro t. rewrite T, stops_no_flush. lia.
    + cbn [g_step] in S. injection S as <- <-. assert (Hq : Forall (fun p => p < length (upd (queues s) 0 (nth 0 (queues s) [] ++ stops (length (g_members (pg s))))))%nat home) by (rewrite L; eapply Forall_impl; [|exact Hhome]; cbn; intros; lia).
      apply pinv_more; [exact V|cbn [g_members]; apply map_length|rewrite post_all_length; exact L| |].
      * intros p' q' k H I. destruct (post_all_in _ _ _ _ _ _ _ Hq H I) as [(q0 & H0 & I0)|(j & -> & Hj)]; [eapply A; eauto|exact Hj].
      * intros i m' Hm. cbn [g_members] in Hm. rewrite nth_error_map in Hm. destruct (nth_error (g_members (pg s)) i) as [m|] eqn:Em; [|discriminate]. injection Hm as <-. exists m. split; [reflexivity|]. split; [reflexivity|].
        intro t. cbn [post mb_pending]. rewrite count_occ_app, post_all_sum, T, stops_no_flush, isf_seq by exact Hq. cbn [count_occ]. assert (i < length home)%nat by (rewrite <- (v_len _ V); apply nth_error_Some; congruence).
        destruct (Nat.ltb_spec i (0 + length home)); [|lia]. destruct (Z.eqb_spec u64_max t); destruct (Z.eq_dec u64_max t); cbn; lia || congruence.
  - destruct (g_step (pg s) (LSpurious i)) as [| |g' e'] eqn:St; try discriminate. injection S as <- <-. cbn [g_step] in St. destruct (nth_error (g_members (pg s)) i) as [m|] eqn:Hm; [|discriminate]. injection St as <- <-.
    apply pinv_more; [exact V|cbn [set_member g_members]; apply upd_length|apply V|apply V|]. intros j m' Hj. cbn [set_member g_members] in Hj. rewrite nth_upd in Hj. destruct (Nat.eqb_spec j i) as [->|N].
    + destruct (_ <? _)%nat; [|discriminate]. injection Hj as <-. exists m. split; [exact Hm|]. split; [apply wake_pc|]. intro t. now rewrite wake_pending.
    + exists m'. split; [exact Hj|]. split; [tauto|reflexivity].
Qed.

Lemma pinv_new lossy gmax maxs pools : length maxs = length home -> pinv (pool_new lossy gmax maxs nq pools).
Proof.
  intro L. assert (W : forall w p x, nth_error (workers (pool_new lossy gmax maxs nq pools)) w = Some (p, x) -> x = WIdle).
  { intros w p x H. cbn in H. rewrite nth_error_map in H. destruct (nth_error pools w); [|discriminate]. now injection H. }
  assert (Q : forall p q, nth_error (queues (pool_new lossy gmax maxs nq pools)) p = Some q -> q = []).
  { intros p q H. cbn in H. apply nth_error_In in H. now apply repeat_spec in H. }
  constructor.
  - cbn. apply repeat_length.
  - cbn. now rewrite map_length.
  - intros p q k H I. rewrite (Q p q H) in I. destruct I.
  - intros w p k [H|H]; apply W in H; discriminate.
  - intros w1 w2 p1 p2 k1 k2 H. apply W in H. discriminate.
  - intros i m H P. cbn in H. rewrite nth_error_map in H. destruct (nth_error maxs i); [|discriminate]. injection H as <-. now elim P.
  - intros i m t H. cbn in H. rewrite nth_error_map in H. destruct (nth_error maxs i); [|discriminate]. injection H as <-. cbn [member_new mb_pending count_occ]. unfold total. cbn [pool_new queues workers].
    rewrite sumw_repeat. cbn [sumw]. rewrite Nat.mul_0_r. cbn. symmetry. apply sumw_zero. intros w x H. destruct x as [p x]. rewrite (W w p x H). reflexivity.
Qed.
End Inv.

(** *** Seen from the group, an execution is one of GroupModel.v. *)
Lemma pstep_group home s l s' e : pstep home s l = POk s' e -> (pg s' = pg s /\ e = []) \/ exists gl, g_step (pg s) gl = Ok (pg s') e.
Proof.
  assert (D : forall w p k l0 s1 e1, g_do home s w p k l0 = POk s1 e1 -> exists gl, g_step (pg s) gl = Ok (pg s1) e1).
  { intros w p k l0 s1 e1 G. unfold g_do in G. destruct (g_step (pg s) l0) as [| |g' e'] eqn:St; try discriminate. injection G as <- <-. exists l0. exact St. }
  intro S. destruct l as [i ids fin|w|w|w alloc| |i]; cbn [pstep] in S.
  - destruct (nth_error home i); [|discriminate]. destruct (valid ids); [|discriminate]. injection S as <- <-. now left.
  - destruct (nth_error (workers s) w) as [[p [|k|k]]|]; try discriminate. destruct (nth_error (queues s) p) as [[|k q]|]; try discriminate. injection S as <- <-. now left.
  - destruct (nth_error (workers s) w) as [[p [|k|k]]|]; try discriminate. destruct (existsb _ _); [discriminate|]. injection S as <- <-. now left.
  - destruct (nth_error (workers s) w) as [[p [|k|k]]|]; try discriminate. unfold go in S. destruct (nth_error (g_members (pg s)) (who k)) as [m|]; [|discriminate]. destruct k as [i ids fin|i t]; [|right; eauto].
    destruct (mb_pc m); try (right; eauto; fail). destruct ids; [destruct fin|]; try (right; eauto; fail). injection S as <- <-. now left.
  - destruct (g_lossy (pg s)); [injection S as <- <-; now left|]. destruct (g_step (pg s) LPostStop) as [| |g' e'] eqn:St; try discriminate. injection S as <- <-. right. eauto.
  - destruct (g_step (pg s) (LSpurious i)) as [| |g' e'] eqn:St; try discriminate. injection S as <- <-. right. eauto.
Qed.
Lemma preach_group home s0 s tr : preach home s0 s tr -> forall g0 tr0, g_reach g0 (pg s0) tr0 -> g_reach g0 (pg s) (tr0 ++ tr).
Proof.
  induction 1 as [|s tr l s' e R IH S]; intros g0 tr0 R0; [now rewrite app_nil_r|]. destruct (pstep_group _ _ _ _ _ S) as [[-> ->]|(gl & G)].
  - rewrite app_nil_r. auto.
  - rewrite app_assoc. eapply gr_step; eauto.
Qed.
Lemma g_run_snoc : forall ls g g1 tr l g' e, g_run g ls = Some (g1, tr) -> g_step g1 l = Ok g' e -> g_run g (ls ++ [l]) = Some (g', tr ++ e).
Proof.
  induction ls as [|x ls IH]; intros g g1 tr l g' e H S; cbn [g_run app] in H |- *.
  - injection H as <- <-. rewrite S. now rewrite app_nil_r.
  - destruct (g_step g x) as [| |g2 e2]; try discriminate. destruct (g_run g2 ls) as [[g3 e3]|] eqn:E; [|discriminate]. injection H as <- <-. now rewrite (IH _ _ _ _ _ _ E S), app_assoc.
Qed.
Lemma preach_run home s0 s tr : preach home s0 s tr -> exists ls, g_run (pg s0) ls = Some (pg s, tr).
Proof.
  induction 1 as [|s tr l s' e R (ls & IH) S]; [now exists []|]. destruct (pstep_group _ _ _ _ _ S) as [[-> ->]|(gl & G)].
  - exists ls. now rewrite app_nil_r.
  - exists (ls ++ [gl]). eapply g_run_snoc; eauto.
Qed.
