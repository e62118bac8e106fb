From Coq Require Import List Arith Bool Lia.
From Verif Require Import ConcBase RingModel RingSpec.
Import ListNotations.

Section P.
Context {V : Type} (eqV : forall a b : V, {a = b} + {a <> b}).
Notation ring := (ring V).
Notation mon := (mon V).

Definition rel (p : pc V) (x : tstatus V) : Prop :=
  match p, x with
  | Idle, TIdle => True
  | PushWait v, TCalled (OpPush w) => v = w
  | TryPush v, TCalled (OpTryPush w) => v = w
  | TryPushFail, TCalled (OpTryPush w) => True
  | PushHave v, TCalled (OpPush w | OpTryPush w) => v = w
  | PushPut, TPushed => True
  | PushUndo, TCalled (OpPush _ | OpTryPush _) => True
  | PopWait, TCalled OpPop => True
  | TryPop, TCalled OpTryPop => True
  | TryPopFail, TCalled OpTryPop => True
  | PopHave, TCalled (OpPop | OpTryPop) => True
  | PopPut v, TPopped w => v = w
  | PopUndo, TCalled (OpPop | OpTryPop) => True
  | StopTail false, TCalled OpStop => True
  | StopTail true, TCalled OpRemoveProducer => True
  | (StopHead _ | StopSpace | StopData), TStopping => True
  | AddProducer, TCalled OpAddProducer => True
  | Size, TCalled OpSize => True
  | _, _ => False
  end.

(** Threads that hold, or owe, a data token; a space token; that will still
    post data / space as part of a stop. *)
Definition wD (p : pc V) : nat := match p with PopHave | PopUndo | PushPut => 1 | _ => 0 end.
Definition wS (p : pc V) : nat := match p with PushHave _ | PushUndo | PopPut _ => 1 | _ => 0 end.
Definition wSD (p : pc V) : nat := match p with StopHead _ | StopSpace | StopData => 1 | _ => 0 end.
Definition wSS (p : pc V) : nat := match p with StopHead _ | StopSpace => 1 | _ => 0 end.
Definition wSet (p : pc V) : nat := match p with StopSpace | StopData => 1 | _ => 0 end.

Definition pc_ok (stp : bool) (tl : nat) (q : list V) (p : pc V) : Prop :=
  match p with
  | PushUndo => stp = true
  | PopUndo => stp = true /\ q = []
  | StopHead x => x = tl
  | _ => True
  end.

Record inv (cap : nat) (s : ring) (m : mon) (D E : nat) : Prop := {
  iv_len : length (storage s) = S cap;
  iv_head : head s < S cap;
  iv_tail : tail s = (head s + length (m_q m)) mod S cap;
  iv_q : length (m_q m) <= cap;
  iv_store : forall k, k < S cap -> nth_error (storage s) ((head s + k) mod S cap) = Some (nth_error (m_q m) k);
  iv_data : data_sem s + sumw wD (threads s) = length (m_q m) + D;
  iv_space : space_sem s + sumw wS (threads s) + length (m_q m) = cap + E;
  iv_fault : fault s = false;
  iv_stopped : stopped s = m_stopped m;
  iv_prod : producers s = m_prod m;
  iv_th : Forall2 rel (threads s) (m_th m);
  iv_pc : Forall (pc_ok (stopped s) (tail s) (m_q m)) (threads s);
  iv_live : stopped s = false -> D = 0 /\ E = 0 /\ sumw wSD (threads s) = 0 /\ stop_position s = S cap;
  iv_pos : stop_position s = S cap \/ stop_position s = tail s;
  iv_set : 0 < D + E + sumw wSet (threads s) -> stop_position s = tail s;
  iv_D : stopped s = true -> 1 <= D + sumw wSD (threads s);
  iv_E : stopped s = true -> 1 <= E + sumw wSS (threads s)
}.

Lemma Forall2_nth {A B} (R : A -> B -> Prop) l l' n x : Forall2 R l l' -> nth_error l n = Some x -> exists y, nth_error l' n = Some y /\ R x y.
Proof.
  intro H. revert n. induction H as [|a b l l' Hab H IH]; intros [|n] Hx; cbn [nth_error] in *; try discriminate.
  - injection Hx as <-. eauto.
  - eauto.
Qed.
Lemma Forall2_upd {A B} (R : A -> B -> Prop) l l' n x y : Forall2 R l l' -> R x y -> Forall2 R (upd l n x) (upd l' n y).
Proof. intros H Hxy. revert n. induction H; intros [|n]; cbn [upd]; constructor; auto. Qed.

Lemma inv_new cap n : inv cap (ring_new cap n) (mon_new n) 0 0.
Proof.
  constructor; unfold ring_new, mon_new; cbn [storage head stop_position tail stopped producers data_sem space_sem fault threads m_q m_stopped m_prod m_th length];
    rewrite ?sumw_repeat; cbn [wD wS wSD wSS wSet]; rewrite ?Nat.mul_0_r; try reflexivity; try lia; try discriminate.
  - apply repeat_length.
  - rewrite Nat.mod_small; lia.
  - intros k Hk. rewrite Nat.add_0_l, Nat.mod_small by lia. rewrite nth_error_repeat by lia. now destruct k.
  - induction n; cbn [repeat]; constructor; [exact I|assumption].
  - apply Forall_forall. intros x Hx. apply repeat_spec in Hx. subst. exact I.
Qed.

(** Sums after an update. *)
Ltac wsum t Ht :=
  repeat match goal with
  | |- context [sumw ?w (upd ?l t ?x)] =>
      lazymatch goal with
      | H : sumw w (upd l t x) + _ = _ |- _ => fail
      | _ => let H := fresh "W" in pose proof (sumw_upd w l t _ x Ht) as H
      end
  end.

(** A step which only changes the state of thread [t], the semaphores and the
    producer count. *)
Lemma inv_frame cap s m D E t p p' y' s' m' D' E' :
  inv cap s m D E -> nth_error (threads s) t = Some p ->
  storage s' = storage s -> head s' = head s -> stop_position s' = stop_position s -> tail s' = tail s -> stopped s' = stopped s ->
  fault s' = fault s -> threads s' = upd (threads s) t p' ->
  m_q m' = m_q m -> m_stopped m' = m_stopped m -> m_th m' = upd (m_th m) t y' -> producers s' = m_prod m' ->
  rel p' y' -> pc_ok (stopped s) (tail s) (m_q m) p' ->
  data_sem s' + wD p' + D = data_sem s + wD p + D' ->
  space_sem s' + wS p' + E = space_sem s + wS p + E' ->
  D' + wSD p' = D + wSD p -> E' + wSS p' = E + wSS p ->
  (D + E + wSet p = 0 -> D' + E' + wSet p' = 0) ->
  inv cap s' m' D' E'.
Proof.
  intros [] Ht H1 H2 H3 H4 H5 H6 H7 M1 M2 M3 M4 Hr Hp C1 C2 C3 C4 C5.
  assert (wSS p <= wSD p) by (destruct p; cbn [wSS wSD]; lia). pose proof (sumw_ge wSD _ _ _ Ht) as GSD. pose proof (sumw_ge wSet _ _ _ Ht) as GSet.
  constructor; rewrite ?H1, ?H2, ?H3, ?H4, ?H5, ?H6, ?H7, ?M1, ?M2, ?M3; auto; wsum t Ht; try lia.
  - now apply Forall2_upd.
  - now apply Forall_upd.
  - intro Hst. destruct (iv_live0 Hst) as (-> & -> & Z & ->). lia.
  - intro Hst. specialize (iv_D0 Hst). lia.
  - intro Hst. specialize (iv_E0 Hst). lia.
Qed.

Lemma with_prod_same (m : mon) : with_prod m (m_prod m) = m.
Proof. destruct m. reflexivity. Qed.
Lemma pc_ok_q st tl tl' q q' p : (q = [] -> q' = []) -> tl = tl' -> pc_ok st tl q p -> pc_ok st tl' q' p.
Proof. intros Hq <-. destruct p; cbn [pc_ok]; intuition. Qed.

Lemma mod_cases a n : 0 < n -> a < 2 * n -> a mod n = if a <? n then a else a - n.
Proof.
  intros Hn Ha. destruct (Nat.ltb_spec a n); [now apply Nat.mod_small|].
  replace a with (a - n + 1 * n) at 1 by lia. rewrite Nat.mod_add by lia. apply Nat.mod_small. lia.
Qed.
Lemma next_mod (s : ring) cap i : length (storage s) = S cap -> i < S cap -> next s i = S i mod S cap.
Proof.
  intros HL Hi. unfold next, slots. rewrite HL, mod_cases by lia. destruct (Nat.eqb_spec (S i) (S cap)), (Nat.ltb_spec (S i) (S cap)); lia.
Qed.
Lemma size_q cap (s : ring) (q : list V) : length (storage s) = S cap -> head s < S cap -> tail s = (head s + length q) mod S cap -> length q <= cap ->
  ring_size s = length q.
Proof.
  intros HL Hh Ht Hq. unfold ring_size, slots. rewrite Ht, HL, mod_cases by lia.
  destruct (Nat.ltb_spec (head s + length q) (S cap)).
  - rewrite (proj2 (Nat.leb_le _ _)); lia.
  - rewrite (proj2 (Nat.leb_gt _ _)); lia.
Qed.
Lemma empty_iff cap (s : ring) (q : list V) : head s < S cap -> tail s = (head s + length q) mod S cap -> length q <= cap -> head s = tail s -> q = [].
Proof.
  intros Hh Ht Hq He. rewrite Ht, mod_cases in He by lia. destruct (Nat.ltb_spec (head s + length q) (S cap)); apply length_zero_iff_nil; lia.
Qed.

Ltac frame t Ht D E := eapply (inv_frame _ _ _ D E t); [eassumption|exact Ht|..];
  cbn [set_thread set_data set_space set_stop_position set_producers set_stopped storage head stop_position tail stopped producers data_sem space_sem fault threads
       with_th with_q with_prod with_stopped m_q m_stopped m_prod m_th wD wS wSD wSS wSet];
  try reflexivity; cbn [wD wS wSD wSS wSet]; try lia; try exact I; try (cbn [pc_ok rel] in *; now auto).

Lemma inv_next cap s m D E l s' ev : inv cap s m D E -> ring_next s l = Some (s', ev) ->
  exists m' D' E', mon_run eqV cap m ev = Some m' /\ inv cap s' m' D' E'.
Proof.
  intros HI HN. pose proof (iv_prod _ _ _ _ _ HI) as HP. destruct l as [t o|t sp]; cbn [ring_next] in HN.
  { destruct (nth_error (threads s) t) as [[]|] eqn:Ht; try discriminate. injection HN as <- <-.
    destruct (Forall2_nth _ _ _ _ _ (iv_th _ _ _ _ _ HI) Ht) as (y & Hy & Hr). destruct y; try contradiction.
    exists (with_th m t (TCalled o)), D, E. split; [cbn [mon_run mon_step]; now rewrite Hy|].
    destruct o; frame t Ht D E. }
  unfold step in HN. destruct (nth_error (threads s) t) as [p|] eqn:Ht; [|discriminate].
  destruct (Forall2_nth _ _ _ _ _ (iv_th _ _ _ _ _ HI) Ht) as (y & Hy & Hr).
  assert (Hpc : pc_ok (stopped s) (tail s) (m_q m) p).
  { pose proof (iv_pc _ _ _ _ _ HI) as F. rewrite Forall_forall in F. apply F. eapply nth_error_In. exact Ht. }
  assert (Hlt : t < length (threads s)) by (apply nth_error_Some; congruence).
  assert (Id : m = with_th m t y).
  { destruct m as [q st pr th]. unfold with_th. cbn [m_q m_stopped m_prod m_th] in *. now rewrite upd_id. }
  destruct p; try discriminate.
  - (* PushWait *) destruct (space_sem s) as [|n] eqn:Es; [discriminate|]. injection HN as <- <-. exists m, D, E. split; [reflexivity|].
    rewrite Id. destruct y as [| o | | |]; try contradiction. destruct o; try contradiction. frame t Ht D E.
  - (* TryPush *) destruct y as [| o | | |]; try contradiction. destruct o; try contradiction.
    destruct (space_sem s) as [|n] eqn:Es; [|destruct sp]; injection HN as <- <-; exists m, D, E; (split; [reflexivity|]); rewrite Id; frame t Ht D E.
  - (* TryPushFail *) destruct y as [| o | | |]; try contradiction. destruct o; try contradiction. injection HN as <- <-.
    exists (with_th m t TIdle), D, E. split.
    + cbn [mon_run mon_step]. rewrite Hy, (iv_stopped _ _ _ _ _ HI). cbn [ret_ok]. destruct (m_stopped m); cbn [ret_ok option_map]; now rewrite with_prod_same.
    + frame t Ht D E.
  - (* PushHave *) destruct (stopped s) eqn:Est.
    { injection HN as <- <-. exists m, D, E. split; [reflexivity|]. rewrite Id.
      destruct y as [| o | | |]; try contradiction. destruct o; try contradiction; frame t Ht D E. }
    injection HN as <- <-. destruct (iv_live _ _ _ _ _ HI Est) as (-> & -> & HS & Hsp).
    pose proof (iv_space _ _ _ _ _ HI) as HSp. pose proof (sumw_ge wS _ _ _ Ht) as G. cbn [wS] in G.
    assert (Hc : length (m_q m) < cap) by lia.
    exists (with_th (with_q m (m_q m ++ [v])) t TPushed), 0, 0. split.
    { cbn [mon_run mon_step]. rewrite Hy. rewrite <- (iv_stopped _ _ _ _ _ HI), Est. rewrite (proj2 (Nat.ltb_lt _ _) Hc).
      destruct y as [| o | | |]; try contradiction. destruct o; try contradiction; cbn [rel] in Hr; subst; destruct (eqV _ _); congruence. }
    destruct HI.
    assert (Htl : tail s < S cap) by (rewrite iv_tail0; apply Nat.mod_upper_bound; lia).
    constructor; cbn [set_thread construct storage head stop_position tail stopped producers data_sem space_sem fault threads with_th with_q m_q m_stopped m_prod m_th];
      rewrite ?app_length; cbn [length]; auto; wsum t Ht; cbn [wD wS wSD wSS wSet] in *; try lia.
    + now rewrite upd_length.
    + rewrite (next_mod s cap) by assumption. rewrite iv_tail0. rewrite <- Nat.add_1_r, Nat.add_mod_idemp_l by lia. f_equal. lia.
    + intros k Hk. rewrite nth_upd, iv_len0. destruct (Nat.eqb_spec ((head s + k) mod S cap) (tail s)) as [Eq|Ne].
      * rewrite (proj2 (Nat.ltb_lt _ _) Htl). assert (k = length (m_q m)) as ->.
        { rewrite iv_tail0 in Eq. rewrite !mod_cases in Eq by lia. destruct (Nat.ltb_spec (head s + k) (S cap)), (Nat.ltb_spec (head s + length (m_q m)) (S cap)); lia. }
        rewrite nth_error_app2, Nat.sub_diag by lia. reflexivity.
      * rewrite iv_store0 by exact Hk. f_equal. destruct (Nat.lt_ge_cases k (length (m_q m))) as [L|L]; [now rewrite nth_error_app1|].
        assert (k <> length (m_q m)) by (intros ->; apply Ne; now symmetry).
        rewrite !(proj2 (nth_error_None _ _)); [reflexivity|rewrite app_length; cbn [length]; lia|lia].
    + rewrite iv_fault0, iv_tail0, iv_store0 by lia. rewrite (proj2 (nth_error_None _ _)) by lia. reflexivity.
    + apply Forall2_upd; [assumption|exact I].
    + apply Forall_upd; [|exact I]. rewrite Forall_forall in *. intros x Hx. specialize (iv_pc0 x Hx).
      destruct x; cbn [pc_ok] in *; auto; [destruct iv_pc0; congruence|].
      exfalso. apply In_nth_error in Hx as (i & Hi). pose proof (sumw_ge wSD _ _ _ Hi). cbn [wSD] in *. lia.
    + rewrite Est. discriminate.
    + rewrite Est. discriminate.
  - (* PushPut *) injection HN as <- <-. destruct y; try contradiction. exists (with_th m t TIdle), D, E. split; [cbn [mon_run mon_step]; now rewrite Hy|].
    frame t Ht D E.
  - (* PushUndo *) injection HN as <- <-. cbn [pc_ok] in Hpc. exists (with_th m t TIdle), D, E. split.
    + cbn [mon_run mon_step]. rewrite Hy. rewrite (iv_stopped _ _ _ _ _ HI) in Hpc.
      destruct y as [| o | | |]; try contradiction. destruct o; try contradiction; cbn [ret_ok]; rewrite Hpc; cbn [option_map]; now rewrite with_prod_same.
    + frame t Ht D E.
  - (* PopWait *) destruct (data_sem s) as [|n] eqn:Es; [discriminate|]. injection HN as <- <-. exists m, D, E. split; [reflexivity|].
    rewrite Id. destruct y as [| o | | |]; try contradiction. destruct o; try contradiction. frame t Ht D E.
  - (* TryPop *) destruct y as [| o | | |]; try contradiction. destruct o; try contradiction.
    destruct (data_sem s) as [|n] eqn:Es; [|destruct sp]; injection HN as <- <-; exists m, D, E; (split; [reflexivity|]); rewrite Id; frame t Ht D E.
  - (* TryPopFail *) destruct y as [| o | | |]; try contradiction. destruct o; try contradiction. injection HN as <- <-.
    exists (with_th m t TIdle), D, E. split.
    + cbn [mon_run mon_step]. rewrite Hy. destruct (Nat.eqb_spec (head s) (stop_position s)) as [Eq|Ne]; cbn [ret_ok].
      * assert (Hsp : stop_position s = tail s).
        { destruct (iv_pos _ _ _ _ _ HI) as [X|X]; [|exact X]. pose proof (iv_head _ _ _ _ _ HI). lia. }
        assert (m_q m = []) as -> by (apply (empty_iff cap s); [apply HI|apply HI|apply HI|congruence]).
        assert (Hst : m_stopped m = true).
        { rewrite <- (iv_stopped _ _ _ _ _ HI). destruct (stopped s) eqn:Est; [reflexivity|]. destruct (iv_live _ _ _ _ _ HI Est) as (_ & _ & _ & X).
          pose proof (iv_head _ _ _ _ _ HI). lia. }
        rewrite Hst. cbn [andb is_nil option_map]. now rewrite with_prod_same.
      * cbn [option_map]. now rewrite with_prod_same.
    + frame t Ht D E.
  - (* PopHave *) destruct (Nat.eqb_spec (stop_position s) (head s)) as [Eq|Ne].
    { injection HN as <- <-. exists m, D, E. split; [reflexivity|].
      assert (Hsp : stop_position s = tail s).
      { destruct (iv_pos _ _ _ _ _ HI) as [X|X]; [|exact X]. pose proof (iv_head _ _ _ _ _ HI). lia. }
      assert (Hq : m_q m = []) by (apply (empty_iff cap s); [apply HI|apply HI|apply HI|congruence]).
      assert (Hst : stopped s = true).
      { destruct (stopped s) eqn:Est; [reflexivity|]. destruct (iv_live _ _ _ _ _ HI Est) as (_ & _ & _ & X). pose proof (iv_head _ _ _ _ _ HI). lia. }
      rewrite Id. destruct y as [| o | | |]; try contradiction. destruct o; try contradiction; frame t Ht D E. }
    assert (Hq : m_q m <> []).
    { intro Hq. pose proof (iv_data _ _ _ _ _ HI) as HD. pose proof (sumw_ge wD _ _ _ Ht) as G. cbn [wD] in G. rewrite Hq in HD. cbn [length] in HD.
      pose proof (iv_set _ _ _ _ _ HI) as X. pose proof (iv_tail _ _ _ _ _ HI) as Y. rewrite Hq in Y. cbn [length] in Y. rewrite Nat.add_0_r, Nat.mod_small in Y by apply HI.
      rewrite X in Ne by lia. congruence. }
    destruct (m_q m) as [|v q] eqn:Eq; [contradiction|].
    assert (Hv : nth_error (storage s) (head s) = Some (Some v)).
    { pose proof (iv_store _ _ _ _ _ HI 0 ltac:(lia)) as X. rewrite Eq, Nat.add_0_r, Nat.mod_small in X by apply HI. exact X. }
    rewrite Hv in HN. injection HN as <- <-. exists (with_th (with_q m q) t (TPopped v)), D, E. split.
    { cbn [mon_run mon_step]. rewrite Hy, Eq. destruct y as [| o | | |]; try contradiction. destruct o; try contradiction; destruct (eqV v v); congruence. }
    destruct HI. rewrite Eq in *. cbn [length] in *.
    constructor; cbn [set_thread destroy_head storage head stop_position tail stopped producers data_sem space_sem fault threads with_th with_q m_q m_stopped m_prod m_th];
      auto; wsum t Ht; cbn [wD wS wSD wSS wSet] in *; try lia.
    + now rewrite upd_length.
    + rewrite (next_mod s cap) by assumption. apply Nat.mod_upper_bound. lia.
    + rewrite (next_mod s cap) by assumption. rewrite Nat.add_mod_idemp_l by lia. rewrite iv_tail0. f_equal. lia.
    + intros k Hk. rewrite (next_mod s cap) by assumption. rewrite Nat.add_mod_idemp_l by lia. rewrite nth_upd, iv_len0.
      destruct (Nat.eqb_spec ((S (head s) + k) mod S cap) (head s)) as [Eh|Nh].
      * rewrite (proj2 (Nat.ltb_lt _ _) iv_head0). assert (k = cap) as ->.
        { rewrite mod_cases in Eh by lia. destruct (Nat.ltb_spec (S (head s) + k) (S cap)); lia. }
        rewrite (proj2 (nth_error_None _ _)) by lia. reflexivity.
      * destruct (Nat.eq_dec k cap) as [->|Nk].
        { exfalso. apply Nh. rewrite mod_cases by lia. destruct (Nat.ltb_spec (S (head s) + cap) (S cap)); lia. }
        replace (S (head s) + k) with (head s + S k) by lia. rewrite iv_store0 by lia. reflexivity.
    + rewrite iv_fault0. reflexivity.
    + apply Forall2_upd; [assumption|reflexivity].
    + apply Forall_upd; [|exact I]. eapply Forall_impl; [|exact iv_pc0]. intros x Hx. eapply pc_ok_q; [|reflexivity|exact Hx]. discriminate.
    + intro Hst. destruct (iv_live0 Hst) as (? & ? & ? & ?). lia.
    + intro Hst. specialize (iv_D0 Hst). lia.
    + intro Hst. specialize (iv_E0 Hst). lia.
  - (* PopPut *) injection HN as <- <-. destruct y; try contradiction. cbn [rel] in Hr. subst. exists (with_th m t TIdle), D, E.
    split; [cbn [mon_run mon_step]; rewrite Hy; destruct (eqV _ _); congruence|]. frame t Ht D E.
  - (* PopUndo *) injection HN as <- <-. cbn [pc_ok] in Hpc. destruct Hpc as [Hst Hq]. exists (with_th m t TIdle), D, E. split.
    + cbn [mon_run mon_step]. rewrite Hy. rewrite (iv_stopped _ _ _ _ _ HI) in Hst.
      destruct y as [| o | | |]; try contradiction. destruct o; try contradiction; cbn [ret_ok]; rewrite Hst, Hq; cbn [andb is_nil option_map]; now rewrite with_prod_same.
    + frame t Ht D E.
  - (* StopTail *)
    set (s1 := if remove then set_producers s (producers s - 1) (producers s =? 0) else s) in *.
    destruct (remove && negb (producers s1 =? 0)) eqn:Er.
    { apply andb_true_iff in Er as [-> Er]. unfold s1 in *. clear s1. injection HN as <- <-. cbn [set_producers producers] in Er.
      destruct y as [| o | | |]; try contradiction. destruct o; try contradiction. apply negb_true_iff, Nat.eqb_neq in Er.
      exists (with_th (with_prod m (m_prod m - 1)) t TIdle), D, E. split.
      - cbn [mon_run mon_step]. rewrite Hy. cbn [ret_ok]. rewrite HP in Er. rewrite (proj2 (Nat.ltb_lt 1 (m_prod m))) by lia. reflexivity.
      - frame t Ht D E. }
    assert (Hs1 : storage s1 = storage s /\ head s1 = head s /\ tail s1 = tail s /\ stop_position s1 = stop_position s /\ data_sem s1 = data_sem s /\ space_sem s1 = space_sem s
      /\ fault s1 = fault s /\ threads s1 = threads s).
    { unfold s1. destruct remove; repeat split. }
    destruct Hs1 as (S1 & S2 & S3 & S4 & S5 & S6 & S7 & S8).
    set (m1 := if remove then with_prod m (m_prod m - 1) else m).
    assert (Hm1 : m_q m1 = m_q m /\ m_th m1 = m_th m /\ producers s1 = m_prod m1).
    { unfold m1, s1. destruct remove; cbn [with_prod m_q m_th m_prod set_producers producers]; rewrite ?HP; auto. }
    destruct Hm1 as (M1 & M2 & M3).
    injection HN as <- <-. exists (with_th (with_stopped m1) t TStopping), D, E. split.
    { cbn [mon_run mon_step]. rewrite Hy. unfold m1. destruct remove; destruct y as [| o | | |]; try contradiction.
      - destruct o; try contradiction. cbn [andb] in Er. apply negb_false_iff, Nat.eqb_eq in Er. unfold s1 in Er. cbn [set_producers producers] in Er.
        rewrite HP in Er. destruct (Nat.ltb_spec 1 (m_prod m)); [lia|reflexivity].
      - destruct o; try contradiction. reflexivity. }
    assert (W : forall w, sumw w (upd (threads s) t (StopHead (tail s))) + w (StopTail remove) = sumw w (threads s) + w (StopHead (tail s))) by (intro w; now apply sumw_upd).
    pose proof (W wD) as W1. pose proof (W wS) as W2. pose proof (W wSD) as W3. pose proof (W wSS) as W4. pose proof (W wSet) as W5. clear W. cbn [wD wS wSD wSS wSet] in *.
    destruct HI. clearbody s1 m1. constructor; cbn [set_thread set_stopped storage head stop_position tail stopped producers data_sem space_sem fault threads with_th with_stopped m_q m_stopped m_prod m_th];
      rewrite ?S1, ?S2, ?S3, ?S4, ?S5, ?S6, ?S7, ?S8, ?M1, ?M2; auto; try lia.
    + apply Forall2_upd; [assumption|exact I].
    + apply Forall_upd; [|reflexivity]. eapply Forall_impl; [|exact iv_pc0]. intros x Hx. revert Hx. clear. destruct x; cbn [pc_ok]; intuition.
  - (* StopHead *) cbn [pc_ok] in Hpc. subst saved_tail. injection HN as <- <-. exists m, D, E. split; [reflexivity|]. rewrite Id.
    destruct y; try contradiction.
    pose proof (sumw_ge wSD _ _ _ Ht) as G1. cbn [wSD] in G1.
    destruct HI. constructor; cbn [set_thread set_stop_position storage head stop_position tail stopped producers data_sem space_sem fault threads with_th m_q m_stopped m_prod m_th];
      auto; wsum t Ht; cbn [wD wS wSD wSS wSet] in *; try lia.
    + apply Forall2_upd; [assumption|exact I].
    + apply Forall_upd; [assumption|exact I].
    + intro Hst. destruct (iv_live0 Hst) as (? & ? & ? & ?). lia.
    + intro Hst. specialize (iv_E0 Hst). lia.
  - (* StopSpace *) injection HN as <- <-. exists m, D, (S E). split; [reflexivity|]. rewrite Id. destruct y; try contradiction. frame t Ht D E.
  - (* StopData *) injection HN as <- <-. destruct y; try contradiction. exists (with_th m t TIdle), (S D), E. split; [cbn [mon_run mon_step]; now rewrite Hy|].
    frame t Ht D E.
  - (* AddProducer *) injection HN as <- <-. destruct y as [| o | | |]; try contradiction. destruct o; try contradiction.
    exists (with_th (with_prod m (S (m_prod m))) t TIdle), D, E. split; [cbn [mon_run mon_step]; now rewrite Hy|]. frame t Ht D E.
  - (* Size *) injection HN as <- <-. destruct y as [| o | | |]; try contradiction. destruct o; try contradiction.
    exists (with_th m t TIdle), D, E. split.
    + cbn [mon_run mon_step]. rewrite Hy. cbn [ret_ok]. rewrite (size_q cap s (m_q m)) by apply HI. rewrite Nat.eqb_refl. cbn [option_map]. now rewrite with_prod_same.
    + frame t Ht D E.
Qed.

Lemma mon_run_app cap m tr tr' : mon_run eqV cap m (tr ++ tr') = match mon_run eqV cap m tr with Some m' => mon_run eqV cap m' tr' | None => None end.
Proof. revert m. induction tr as [|e tr IH]; intro m; cbn [app mon_run]; [reflexivity|]. destruct (mon_step eqV cap m e); [apply IH|reflexivity]. Qed.

Lemma exec_inv cap n tr s : exec cap n tr s -> exists m D E, mon_run eqV cap (mon_new n) tr = Some m /\ inv cap s m D E.
Proof.
  induction 1 as [|tr s l s' ev H (m & D & E & HM & HI) HN]; [exists (mon_new n), 0, 0; split; [reflexivity|apply inv_new]|].
  destruct (inv_next _ _ _ _ _ _ _ _ HI HN) as (m' & D' & E' & HM' & HI'). exists m', D', E'. split; [|exact HI'].
  now rewrite mon_run_app, HM.
Qed.
End P.
