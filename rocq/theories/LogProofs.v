(** Invariants of logging to Python. *)
From Coq Require Import String List Arith Bool Lia.
From Verif Require Import ConcBase LogModel LogSpec.
Import ListNotations.
Open Scope list_scope.

Definition render (m : msg) : string * string := (method_name (m_level m), m_text m).
Lemma method_render (m : msg) : (method (m_level m), m_text m) = render m.
Proof. unfold render, method. destruct (m_level m); reflexivity. Qed.

Definition inhand (c : cph) : list msg := match c with CFree m _ | CGil m | CLog m _ => [m] | _ => [] end.
Definition inbatch (c : cph) : bool := match c with CFree _ (S _) | CLog _ _ | CTry _ | CXchg | CWarn | CRel => true | _ => false end.

Lemma accepted_app a b : accepted (a ++ b) = accepted a ++ accepted b.
Proof. unfold accepted. apply flat_map_app. Qed.
Lemma logged_app a b : logged (a ++ b) = logged a ++ logged b.
Proof. unfold logged. apply flat_map_app. Qed.
Lemma count_app f a b : count f (a ++ b) = count f a + count f b.
Proof. unfold count. now rewrite filter_app, app_length. Qed.

(** A drop that is owed a warning: 0 none, 1 flagged, 2 flagged and a batch began since, 3 that batch ended without a warning
    (or something happened after the thread's end), 4 the thread ended *)
Definition ostep (o : nat) (e : event) : nat :=
  match o, e with
  | 3, _ => 3
  | 4, (EAcq | ERel | EMsg _ _ | EWarn _ _) => 3
  | 4, _ => 4
  | _, EEnd => 4
  | 0, EFlag _ => 1
  | _, EWarn _ _ => 0
  | 1, EAcq => 2
  | 2, ERel => 3
  | o, _ => o
  end.
Definition ofold (t : list event) : nat := fold_left ostep t 0.
(** The batch that is open: None if badly nested; messages and warnings in it *)
Definition bstep (b : option (option (nat * nat))) (e : event) : option (option (nat * nat)) :=
  match b, e with
  | None, _ => None
  | Some None, EAcq => Some (Some (0, 0))
  | Some (Some _), EAcq => None
  | Some (Some _), ERel => Some None
  | Some _, EEnd => Some None
  | Some None, ERel => None
  | Some (Some (a, w)), EMsg _ _ => Some (Some (S a, w))
  | Some (Some (a, w)), EWarn _ _ => Some (Some (a, S w))
  | Some None, (EMsg _ _ | EWarn _ _) => None
  | b, _ => b
  end.
Definition bfold (t : list event) : option (option (nat * nat)) := fold_left bstep t (Some None).
Lemma ofold_snoc t e : ofold (t ++ [e]) = ostep (ofold t) e.
Proof. unfold ofold. now rewrite fold_left_app. Qed.
Lemma bfold_snoc t e : bfold (t ++ [e]) = bstep (bfold t) e.
Proof. unfold bfold. now rewrite fold_left_app. Qed.

Definition pflag (p : pph) : nat := match p with PFlag => 1 | PIdle => 0 end.
Definition isw (c : cph) : nat := match c with CWarn => 1 | _ => 0 end.
Definition b2n (b : bool) : nat := if b then 1 else 0.
Definition batch_ok (c : cph) (t : list event) : Prop :=
  match c with
  | CFree _ (S k) => bfold t = Some (Some (S k, 0)) /\ S k < max_passes
  | CLog _ k => bfold t = Some (Some (k, 0)) /\ k < max_passes
  | CTry k => bfold t = Some (Some (k, 0)) /\ 1 <= k <= max_passes
  | CXchg | CWarn => exists k, bfold t = Some (Some (k, 0)) /\ k <= max_passes
  | CRel => exists k w, bfold t = Some (Some (k, w)) /\ k <= max_passes /\ w <= 1
  | _ => bfold t = Some None
  end.
Definition owed_ok (c : cph) (ovf : bool) (t : list event) : Prop :=
  match ofold t with
  | 0 => True
  | 1 => ovf = true \/ c = CWarn
  | 2 => inbatch c = true /\ ((ovf = true /\ c <> CRel /\ c <> CWarn) \/ c = CWarn)
  | 4 => c = CEnd
  | _ => False
  end.

Record linv (cap : nat) (s : lst) : Prop := {
  i_acc : accepted (l_trace s) = logged (l_trace s) ++ map render (inhand (l_cons s) ++ l_q s);
  i_cap : length (l_q s) + held (l_cons s) <= cap;
  i_stopped : l_stopped s = match l_stop s with SJoin | SJoined | SDone => true | _ => false end;
  i_end : l_cons s = CEnd -> l_q s = [] /\ l_stopped s = true;
  i_endev : In EEnd (l_trace s) -> l_cons s = CEnd;
  i_gil : l_gil s = OCons <-> inbatch (l_cons s) = true;
  i_gils : l_gil s = OStop -> l_stop s = SNone \/ l_stop s = SJoined \/ l_stop s = SDone;
  i_joined : match l_stop s with SJoined | SDone => l_cons s = CEnd | _ => True end;
  i_clear : In EClear (l_trace s) -> l_stop s = SDone;
  i_batch : batch_ok (l_cons s) (l_trace s);
  i_owed : owed_ok (l_cons s) (l_ovf s) (l_trace s);
  i_warns : count is_warn (l_trace s) + isw (l_cons s) + b2n (l_ovf s) + sumw pflag (l_prod s) <= count is_drop (l_trace s);
  i_lit : forall a b, In (EWarn a b) (l_trace s) -> a = "warning"%string /\ b = drop_text
}.

Lemma linv_init cap n : linv cap (linit n).
Proof.
  constructor; cbn; try tauto; try lia; try discriminate; try reflexivity.
  - split; discriminate.
  - rewrite sumw_repeat. cbn. lia.
Qed.

Lemma max_pos : 1 < max_passes.
Proof. apply Nat.ltb_lt. reflexivity. Qed.

Ltac lc := cbn [l_q l_stopped l_ovf l_gil l_prod l_cons l_stop l_trace set_cons set_gil set_q set_stop set_ovf set_prod ring_stop] in *.
Ltac inapp := repeat match goal with H : In _ (_ ++ _) |- _ => apply in_app_iff in H; cbn [In] in H end.

Lemma linv_call cap s p m : linv cap s -> nth_error (l_prod s) p = Some PIdle -> linv cap (call cap s p m).
Proof.
  intros I Hp. unfold call. destruct (l_stopped s) eqn:Es; [|destruct (Nat.ltb_spec (used s) cap) as [Hu|Hu]].
  - destruct I. constructor; lc; try rewrite app_nil_r; auto.
    + rewrite accepted_app, logged_app. cbn. now rewrite !app_nil_r.
    + intro H. inapp. destruct H as [H|[H|[]]]; [auto|discriminate].
    + intro H. inapp. destruct H as [H|[H|[]]]; [auto|discriminate].
    + unfold batch_ok in *. rewrite bfold_snoc. destruct (l_cons s) as [|? []| | | | | | |];
        repeat match goal with H : ex _ |- _ => destruct H | H : _ /\ _ |- _ => destruct H end; try rewrite i_batch0; try rewrite H; cbn; eauto.
    + unfold owed_ok in *. rewrite ofold_snoc. destruct (ofold (l_trace s)) as [|[|[|[|[|]]]]]; cbn; auto; try contradiction; try discriminate.
    + rewrite !count_app. cbn. lia.
    + intros a b H. inapp. destruct H as [H|[H|[]]]; [auto|discriminate].
  - unfold used in Hu. destruct I. constructor; lc; auto.
    + rewrite accepted_app, logged_app. cbn. rewrite i_acc0, app_nil_r, <- app_assoc, app_assoc, !map_app, <- !app_assoc. reflexivity.
    + rewrite app_length. cbn. lia.
    + intro H. specialize (i_end0 H) as [_ H']. congruence.
    + intro H. inapp. destruct H as [H|[H|[]]]; [auto|discriminate].
    + intro H. inapp. destruct H as [H|[H|[]]]; [auto|discriminate].
    + unfold batch_ok in *. rewrite bfold_snoc. destruct (l_cons s) as [|? []| | | | | | |];
        repeat match goal with H : ex _ |- _ => destruct H | H : _ /\ _ |- _ => destruct H end; try rewrite i_batch0; try rewrite H; cbn; eauto.
    + unfold owed_ok in *. rewrite ofold_snoc. destruct (ofold (l_trace s)) as [|[|[|[|[|]]]]]; cbn; auto; try contradiction; try discriminate.
    + rewrite !count_app. cbn. lia.
    + intros a b H. inapp. destruct H as [H|[H|[]]]; [auto|discriminate].
  - destruct I. constructor; lc; auto.
    + rewrite accepted_app, logged_app. cbn. now rewrite !app_nil_r.
    + intro H. inapp. destruct H as [H|[H|[]]]; [auto|discriminate].
    + intro H. inapp. destruct H as [H|[H|[]]]; [auto|discriminate].
    + unfold batch_ok in *. rewrite bfold_snoc. destruct (l_cons s) as [|? []| | | | | | |];
        repeat match goal with H : ex _ |- _ => destruct H | H : _ /\ _ |- _ => destruct H end; try rewrite i_batch0; try rewrite H; cbn; eauto.
    + unfold owed_ok in *. rewrite ofold_snoc. destruct (ofold (l_trace s)) as [|[|[|[|[|]]]]]; cbn; auto; try contradiction; try discriminate.
    + rewrite !count_app. cbn. pose proof (sumw_upd pflag _ _ _ PFlag Hp) as E. cbn in E. lia.
    + intros a b H. inapp. destruct H as [H|[H|[]]]; [auto|discriminate].
Qed.

Lemma linv_flag cap s p : linv cap s -> nth_error (l_prod s) p = Some PFlag ->
  linv cap (set_prod (set_ovf s true) (upd (l_prod s) p PIdle) [EFlag p]).
Proof.
  intros I Hp. destruct I. constructor; lc; auto.
  - rewrite accepted_app, logged_app. cbn. now rewrite !app_nil_r.
  - intro H. inapp. destruct H as [H|[H|[]]]; [auto|discriminate].
  - intro H. inapp. destruct H as [H|[H|[]]]; [auto|discriminate].
  - unfold batch_ok in *. rewrite bfold_snoc. destruct (l_cons s) as [|? []| | | | | | |];
      repeat match goal with H : ex _ |- _ => destruct H | H : _ /\ _ |- _ => destruct H end; try rewrite i_batch0; try rewrite H; cbn; eauto.
  - unfold owed_ok in *. rewrite ofold_snoc. destruct (ofold (l_trace s)) as [|[|[|[|[|]]]]]; cbn; auto; try contradiction; try discriminate.
    destruct i_owed0 as (A & [(B & C & D)| ->]); split; auto.
  - rewrite !count_app. cbn. pose proof (sumw_upd pflag _ _ _ PIdle Hp) as E. cbn in E. destruct (l_ovf s); cbn in *; lia.
  - intros a b H. inapp. destruct H as [H|[H|[]]]; [auto|discriminate].
Qed.

Lemma linv_gil cap s g : linv cap s -> l_gil s <> OCons -> g <> OCons -> (g = OStop -> l_stop s = SNone \/ l_stop s = SJoined) -> linv cap (set_gil s g).
Proof.
  intros I H1 H2 H3. destruct I. constructor; lc; auto.
  - split; intro H; [congruence|]. exfalso. apply H1, i_gil0, H.
  - intro H. destruct (H3 H); auto.
Qed.

Lemma linv_stop cap s s' : linv cap s -> stop_step s = Some s' -> linv cap s'.
Proof.
  intros I. unfold stop_step. destruct (l_stop s) eqn:Es; intro H; try discriminate.
  - destruct (l_gil s) eqn:Eg; try discriminate. injection H as <-. destruct I. rewrite Es in *. constructor; lc; rewrite ?app_nil_r; auto.
    + split; intro H; [discriminate|]. apply i_gil0 in H. congruence.
    + discriminate.
    + intro H. specialize (i_clear0 H). congruence.
  - injection H as <-. destruct I. rewrite Es in *. constructor; lc; auto.
    + rewrite accepted_app, logged_app. cbn. now rewrite !app_nil_r.
    + intro H. specialize (i_end0 H). tauto.
    + intro H. inapp. destruct H as [H|[H|[]]]; [auto|discriminate].
    + intro H. destruct (i_gils0 H) as [G|[G|G]]; discriminate.
    + intro H. inapp. destruct H as [H|[H|[]]]; [|discriminate]. specialize (i_clear0 H). congruence.
    + unfold batch_ok in *. rewrite bfold_snoc. destruct (l_cons s) as [|? []| | | | | | |];
        repeat match goal with H : ex _ |- _ => destruct H | H : _ /\ _ |- _ => destruct H end; try rewrite i_batch0; try rewrite H; cbn; eauto.
    + unfold owed_ok in *. rewrite ofold_snoc. destruct (ofold (l_trace s)) as [|[|[|[|[|]]]]]; cbn; auto; try contradiction; try discriminate.
    + rewrite !count_app. cbn. lia.
    + intros a b H. inapp. destruct H as [H|[H|[]]]; [auto|discriminate].
  - destruct (l_cons s) eqn:Ec; try discriminate. injection H as <-. destruct I. rewrite Es, ?Ec in *. constructor; lc; rewrite ?app_nil_r, ?Ec; auto.
    intro H. specialize (i_clear0 H). congruence.
  - destruct (l_gil s) eqn:Eg; try discriminate. injection H as <-. destruct I. rewrite Es in *. constructor; lc; rewrite ?i_joined0 in *; auto.
    + rewrite accepted_app, logged_app. cbn. rewrite !app_nil_r. exact i_acc0.
    + unfold batch_ok in *. rewrite bfold_snoc, i_batch0. reflexivity.
    + unfold owed_ok in *. rewrite ofold_snoc. destruct (ofold (l_trace s)) as [|[|[|[|[|]]]]]; cbn; auto; try contradiction; try discriminate.
    + rewrite !count_app. cbn in *. lia.
    + intros a b H. inapp. destruct H as [H|[H|[]]]; [auto|discriminate].
Qed.

Lemma linv_cons cap s s' : linv cap s -> cons_step s = Some s' -> linv cap s'.
Proof.
  intros I. unfold cons_step. destruct (l_cons s) as [|m k|m|m k|k| | | |] eqn:Ec; intro H.
  - destruct (l_q s) as [|m q] eqn:Eq.
    + destruct (l_stopped s) eqn:Es; [|discriminate]. injection H as <-. destruct I. rewrite Ec, Eq in *. constructor; lc; rewrite ?Eq, ?Es; auto.
      * rewrite accepted_app, logged_app. cbn. rewrite !app_nil_r. cbn in i_acc0. now rewrite app_nil_r in i_acc0.
      * congruence.
      * destruct (l_stop s); auto.
      * intro H. inapp. destruct H as [H|[H|[]]]; [auto|discriminate].
      * cbn in *. rewrite bfold_snoc, i_batch0. reflexivity.
      * unfold owed_ok in *. rewrite ofold_snoc. destruct (ofold (l_trace s)) as [|[|[|[|[|]]]]]; cbn in *; auto; try contradiction; try discriminate.
      * rewrite !count_app. cbn in *. lia.
      * intros a b H. inapp. destruct H as [H|[H|[]]]; [auto|discriminate].
    + injection H as <-. destruct I. rewrite Ec, Eq in *. constructor; lc; rewrite ?app_nil_r; auto.
      * cbn in *. lia.
      * discriminate.
      * intro H. specialize (i_endev0 H). discriminate.
      * destruct (l_stop s); auto; discriminate.
      * unfold owed_ok in *. destruct (ofold (l_trace s)) as [|[|[|[|[|]]]]]; auto; try contradiction; try discriminate.
        -- destruct i_owed0; [auto|discriminate].
        -- destruct i_owed0; discriminate.
  - injection H as <-. destruct I. rewrite Ec in *. destruct k as [|k]; constructor; lc; rewrite ?app_nil_r; auto; try discriminate.
    all: try (cbn in *; lia).
    all: try (intro H; specialize (i_endev0 H); discriminate).
    all: try (destruct (l_stop s); auto; discriminate).
    all: unfold owed_ok in *; destruct (ofold (l_trace s)) as [|[|[|[|[|]]]]]; auto; cbn in *; try contradiction; try discriminate; try (destruct i_owed0; [auto|discriminate]); try (destruct i_owed0; discriminate).
    destruct i_owed0 as (_ & [(A & _)|A]); [|discriminate]. split; auto. left. split; [auto|split; discriminate].
  - destruct (l_gil s) eqn:Eg; try discriminate. injection H as <-. destruct I. rewrite Ec in *. constructor; lc; auto; try discriminate.
    + rewrite accepted_app, logged_app. cbn. rewrite !app_nil_r. exact i_acc0.
    + intro H. inapp. destruct H as [H|[H|[]]]; [specialize (i_endev0 H); discriminate|discriminate].
    + split; auto.
    + destruct (l_stop s); auto; discriminate.
    + intro H. inapp. destruct H as [H|[H|[]]]; [auto|discriminate].
    + cbn in *. rewrite bfold_snoc, i_batch0. pose proof max_pos. split; [reflexivity|lia].
    + unfold owed_ok in *. rewrite ofold_snoc. destruct (ofold (l_trace s)) as [|[|[|[|[|]]]]]; cbn in *; auto; try contradiction; try discriminate.
      * destruct i_owed0; [|discriminate]. split; auto. left. split; [auto|split; discriminate].
      * destruct i_owed0; discriminate.
    + rewrite !count_app. cbn in *. lia.
    + intros a b H. inapp. destruct H as [H|[H|[]]]; [auto|discriminate].
  - injection H as <-. destruct I. rewrite Ec in *. constructor; lc; auto; try discriminate.
    + rewrite accepted_app, logged_app. cbn [accepted logged flat_map app inhand]. rewrite method_render, app_nil_r, i_acc0. cbn [inhand app map].
      now rewrite <- app_assoc.
    + intro H. inapp. destruct H as [H|[H|[]]]; [specialize (i_endev0 H); discriminate|discriminate].
    + destruct (l_stop s); auto; discriminate.
    + intro H. inapp. destruct H as [H|[H|[]]]; [auto|discriminate].
    + cbn in *. destruct i_batch0 as (A & B). rewrite bfold_snoc, A. split; [reflexivity|lia].
    + unfold owed_ok in *. rewrite ofold_snoc. destruct (ofold (l_trace s)) as [|[|[|[|[|]]]]]; cbn in *; auto; try contradiction; try discriminate.
      * destruct i_owed0; [auto|discriminate].
      * destruct i_owed0 as (_ & [(A & _)|A]); [|discriminate]. split; auto. left. split; [auto|split; discriminate].
    + rewrite !count_app. cbn in *. lia.
    + intros a b H. inapp. destruct H as [H|[H|[]]]; [auto|discriminate].
  - assert (X : linv cap (set_cons s CXchg [])).
    { destruct I. rewrite Ec in *. constructor; lc; rewrite ?app_nil_r; auto; try discriminate.
      - intro H0. specialize (i_endev0 H0). discriminate.
      - destruct (l_stop s); auto; discriminate.
      - cbn [batch_ok] in *. exists k. tauto.
      - unfold owed_ok in *. destruct (ofold (l_trace s)) as [|[|[|[|[|]]]]]; auto; try contradiction; try discriminate.
        + destruct i_owed0; [auto|discriminate].
        + destruct i_owed0 as (_ & [(A & _)|A]); [|discriminate]. split; auto. left. split; [auto|split; discriminate]. }
    destruct (Nat.ltb_spec k max_passes) as [Hk|Hk]; [|injection H as <-; exact X].
    destruct (l_q s) as [|m q] eqn:Eq.
    + destruct (l_stopped s) eqn:Es; [|injection H as <-; exact X].
      injection H as <-. clear X. destruct I. rewrite Ec, Eq in *. constructor; lc; rewrite ?Eq, ?Es; auto.
      * rewrite accepted_app, logged_app. cbn. rewrite !app_nil_r. cbn in i_acc0. now rewrite app_nil_r in i_acc0.
      * congruence.
      * split; discriminate.
      * discriminate.
      * destruct (l_stop s); auto.
      * intro H. inapp. destruct H as [H|[H|[]]]; [auto|discriminate].
      * cbn in *. destruct i_batch0 as (A & B). rewrite bfold_snoc, A. reflexivity.
      * unfold owed_ok in *. rewrite ofold_snoc. destruct (ofold (l_trace s)) as [|[|[|[|[|]]]]]; cbn in *; auto; try contradiction; try discriminate.
      * rewrite !count_app. cbn in *. lia.
      * intros a b H. inapp. destruct H as [H|[H|[]]]; [auto|discriminate].
    + injection H as <-. clear X. destruct I. rewrite Ec, Eq in *. cbn [batch_ok] in i_batch0. destruct i_batch0 as (A & B). destruct k as [|k]; [lia|].
      constructor; lc; rewrite ?app_nil_r; auto; try discriminate.
      * cbn in *. lia.
      * intro H. specialize (i_endev0 H). discriminate.
      * destruct (l_stop s); auto; discriminate.
      * cbn. auto.
      * unfold owed_ok in *. destruct (ofold (l_trace s)) as [|[|[|[|[|]]]]]; auto; try contradiction; try discriminate.
        -- destruct i_owed0; [auto|discriminate].
        -- destruct i_owed0 as (_ & [(C & _)|C]); [|discriminate]. split; auto. left. split; [auto|split; discriminate].
  - injection H as <-. destruct I. rewrite Ec in *. cbn [batch_ok] in i_batch0. destruct i_batch0 as (k & A & B).
    constructor; lc; rewrite ?app_nil_r; auto; try discriminate.
    + destruct (l_ovf s); auto.
    + destruct (l_ovf s); auto.
    + destruct (l_ovf s); discriminate.
    + intro H. specialize (i_endev0 H). discriminate.
    + destruct (l_ovf s); auto.
    + destruct (l_stop s); auto; discriminate.
    + destruct (l_ovf s); cbn; eauto. exists k, 0. auto.
    + unfold owed_ok in *. destruct (ofold (l_trace s)) as [|[|[|[|[|]]]]]; auto; try contradiction; try discriminate.
      * destruct i_owed0 as [->|]; [auto|discriminate].
      * destruct i_owed0 as (_ & [(-> & _)|C]); [|discriminate]. split; auto.
    + destruct (l_ovf s); cbn in *; lia.
  - injection H as <-. destruct I. rewrite Ec in *. cbn [batch_ok] in i_batch0. destruct i_batch0 as (k & A & B).
    constructor; lc; auto; try discriminate.
    + rewrite accepted_app, logged_app. cbn. rewrite !app_nil_r. exact i_acc0.
    + intro H. inapp. destruct H as [H|[H|[]]]; [specialize (i_endev0 H); discriminate|discriminate].
    + destruct (l_stop s); auto; discriminate.
    + intro H. inapp. destruct H as [H|[H|[]]]; [auto|discriminate].
    + cbn. exists k, 1. rewrite bfold_snoc, A. auto.
    + unfold owed_ok in *. rewrite ofold_snoc. destruct (ofold (l_trace s)) as [|[|[|[|[|]]]]]; cbn in *; auto; try contradiction; try discriminate.
    + rewrite !count_app. cbn in *. lia.
    + intros a b H. inapp. destruct H as [H|[H|[]]]; [auto|]. injection H as <- <-. auto.
  - injection H as <-. destruct I. rewrite Ec in *. cbn [batch_ok] in i_batch0. destruct i_batch0 as (k & w & A & B & C).
    constructor; lc; auto; try discriminate.
    + rewrite accepted_app, logged_app. cbn. rewrite !app_nil_r. exact i_acc0.
    + intro H. inapp. destruct H as [H|[H|[]]]; [specialize (i_endev0 H); discriminate|discriminate].
    + split; discriminate.
    + destruct (l_stop s); auto; discriminate.
    + intro H. inapp. destruct H as [H|[H|[]]]; [auto|discriminate].
    + cbn. rewrite bfold_snoc, A. auto.
    + unfold owed_ok in *. rewrite ofold_snoc. destruct (ofold (l_trace s)) as [|[|[|[|[|]]]]]; cbn in *; auto; try contradiction; try discriminate.
      * destruct i_owed0; [auto|discriminate].
      * destruct i_owed0 as (_ & [(_ & D & _)|D]); [congruence|discriminate].
    + rewrite !count_app. cbn in *. lia.
    + intros a b H. inapp. destruct H as [H|[H|[]]]; [auto|discriminate].
  - discriminate.
Qed.

Lemma owner_eqb_eq a b : owner_eqb a b = true -> a = b.
Proof. destruct a, b; cbn; try discriminate; auto. intro H. apply Nat.eqb_eq in H. congruence. Qed.
Lemma linv_step cap s l s' : linv cap s -> lstep cap s l = Some s' -> linv cap s'.
Proof.
  intros I H. destruct l as [p m|p|p|p| | |]; cbn [lstep] in H.
  - destruct (nth_error (l_prod s) p) as [[]|] eqn:E; try discriminate. injection H as <-. now apply linv_call.
  - destruct (nth_error (l_prod s) p) as [[]|] eqn:E; try discriminate. injection H as <-. now apply linv_flag.
  - destruct (p <? _); [|discriminate]. cbn [andb] in H. destruct (owner_eqb _ _) eqn:E; [|discriminate]. apply owner_eqb_eq in E. injection H as <-.
    apply linv_gil; congruence.
  - destruct (owner_eqb _ _) eqn:E; [|discriminate]. apply owner_eqb_eq in E. injection H as <-. apply linv_gil; congruence.
  - eapply linv_cons; eauto.
  - destruct (l_stop s) eqn:Es; try discriminate;
      (destruct (owner_eqb _ _) eqn:E; [|discriminate]; apply owner_eqb_eq in E; injection H as <-; apply linv_gil; auto; congruence).
  - eapply linv_stop; eauto.
Qed.
Lemma linv_run cap ls s s' : linv cap s -> lrun cap s ls = Some s' -> linv cap s'.
Proof.
  revert s. induction ls as [|l ls IH]; intros s I H; cbn in H; [congruence|]. destruct (lstep cap s l) eqn:E; [|discriminate].
  eapply IH; [|exact H]. eapply linv_step; eauto.
Qed.
Lemma linv_reach cap n ls s : lrun cap (linit n) ls = Some s -> linv cap s.
Proof. apply linv_run, linv_init. Qed.
Lemma lrun_app cap s a b : lrun cap s (a ++ b) = match lrun cap s a with Some s' => lrun cap s' b | None => None end.
Proof. revert s. induction a as [|l a IH]; intro s; cbn; [reflexivity|]. destruct (lstep cap s l); auto. Qed.

(** The folds mean what they should *)
Lemma ofold_bad t : fold_left ostep t 3 = 3.
Proof. induction t as [|e t IH]; cbn; auto. Qed.
Lemma ofold_keep t o : count is_warn t = 0 -> 1 <= o <= 4 -> 1 <= fold_left ostep t o <= 4.
Proof.
  revert o. induction t as [|e t IH]; intros o H Ho; cbn [fold_left]; auto. unfold count in H. cbn in H.
  destruct (is_warn e) eqn:E; [discriminate|]. apply IH; auto.
  destruct o as [|[|[|[|[|]]]]]; try lia; destruct e; cbn in *; try lia; discriminate.
Qed.
Lemma ofold_keep2 t o : count is_warn t = 0 -> 2 <= o <= 4 -> 2 <= fold_left ostep t o <= 4.
Proof.
  revert o. induction t as [|e t IH]; intros o H Ho; cbn [fold_left]; auto. unfold count in H. cbn in H.
  destruct (is_warn e) eqn:E; [discriminate|]. apply IH; auto.
  destruct o as [|[|[|[|[|]]]]]; try lia; destruct e; cbn in *; try lia; discriminate.
Qed.
Lemma ofold_flag t1 p t2 t3 t4 : count is_warn (t2 ++ EAcq :: t3) = 0 -> ofold (t1 ++ EFlag p :: t2 ++ EAcq :: t3 ++ ERel :: t4) = 3.
Proof.
  intro H. rewrite count_app in H. change (EAcq :: t3) with ([EAcq] ++ t3) in H. rewrite count_app in H. unfold ofold. rewrite fold_left_app. cbn [fold_left].
  rewrite fold_left_app. cbn [fold_left]. rewrite fold_left_app. cbn [fold_left].
  set (o := fold_left ostep t1 0). assert (O1 : o <= 4).
  { unfold o. clear. assert (G : forall o, o <= 4 -> fold_left ostep t1 o <= 4); [|apply G; lia].
    induction t1 as [|e t IH]; intros o H; cbn [fold_left]; auto. apply IH. destruct o as [|[|[|[|[|]]]]]; destruct e; cbn; lia. }
  assert (O2 : 1 <= ostep o (EFlag p) <= 4) by (destruct o as [|[|[|[|[|]]]]]; cbn; lia).
  pose proof (ofold_keep t2 _ ltac:(lia) O2) as O3. set (o3 := fold_left ostep t2 _) in *.
  assert (O4 : 2 <= ostep o3 EAcq <= 4) by (destruct o3 as [|[|[|[|[|]]]]]; cbn; lia).
  pose proof (ofold_keep2 t3 _ ltac:(lia) O4) as O5. set (o5 := fold_left ostep t3 _) in *.
  replace (ostep o5 ERel) with 3 by (destruct o5 as [|[|[|[|[|]]]]]; cbn; lia). apply ofold_bad.
Qed.
Lemma bfold_bad t : fold_left bstep t None = None.
Proof. induction t as [|e t IH]; cbn; auto. Qed.
(** A message or warning is in a batch that began with EAcq *)
Lemma bfold_open t a w : bfold t = Some (Some (a, w)) ->
  exists t1 t2, t = t1 ++ EAcq :: t2 /\ forallb (fun e => negb (is_edge e)) t2 = true /\ count is_msg t2 = a /\ count is_warn t2 = w.
Proof.
  revert a w. induction t as [|e t IH] using rev_ind; intros a w H; [discriminate|]. rewrite bfold_snoc in H.
  destruct (bfold t) as [[[x y]|]|] eqn:E; [| |discriminate].
  - destruct (IH x y eq_refl) as (t1 & t2 & -> & A & B & C).
    assert (K : is_edge e = false -> exists t1' t2', (t1 ++ EAcq :: t2) ++ [e] = t1' ++ EAcq :: t2' /\ forallb (fun e => negb (is_edge e)) t2' = true /\
       count is_msg t2' = count is_msg t2 + count is_msg [e] /\ count is_warn t2' = count is_warn t2 + count is_warn [e]).
    { intro Hb. exists t1, (t2 ++ [e]). rewrite <- app_assoc. cbn [app]. split; [reflexivity|]. rewrite forallb_app, A, !count_app. cbn. rewrite Hb. auto. }
    destruct e; cbn [bstep] in H; try discriminate; injection H as <- <-; destruct (K eq_refl) as (t1' & t2' & K1 & K2 & K3 & K4);
      exists t1', t2'; repeat split; auto; rewrite ?K3, ?K4; cbn; lia.
  - destruct e; cbn [bstep] in H; try discriminate. injection H as <- <-. exists t, []. repeat split.
Qed.
Lemma bfold_split t1 e t2 b : bfold (t1 ++ e :: t2) = Some b -> exists c, bfold (t1 ++ [e]) = Some c.
Proof.
  unfold bfold. change (e :: t2) with ([e] ++ t2). rewrite app_assoc, fold_left_app. destruct (fold_left bstep (t1 ++ [e]) _); [eauto|]. rewrite bfold_bad. discriminate.
Qed.
(** Every prefix of a trace is the trace of an execution *)
Lemma lstep_trace cap s l s' : lstep cap s l = Some s' -> l_trace s' = l_trace s \/ exists e, l_trace s' = l_trace s ++ [e].
Proof.
  intro H. destruct l as [p m|p|p|p| | |]; cbn [lstep] in H;
    repeat match type of H with
    | match ?x with _ => _ end = _ => destruct x; try discriminate
    | Some _ = Some _ => injection H as <-
    end; unfold call, cons_step, stop_step in *;
    repeat match goal with
    | H : match ?x with _ => _ end = Some _ |- _ => destruct x; try discriminate
    | H : Some _ = Some _ |- _ => injection H as <-
    | |- context [if ?x then _ else _] => destruct x
    end; lc; rewrite ?app_nil_r; eauto.
Qed.
Lemma lrun_prefix cap ls s s' t1 t2 : lrun cap s ls = Some s' -> l_trace s' = t1 ++ t2 -> length (l_trace s) <= length t1 ->
  exists ls' s'', lrun cap s ls' = Some s'' /\ l_trace s'' = t1.
Proof.
  revert s' t1 t2. induction ls as [|l ls IH] using rev_ind; intros s' t1 t2 H Ht Hl.
  - cbn in H. injection H as <-. assert (t2 = []) as ->. { destruct t2; auto. rewrite Ht, app_length in Hl. cbn in Hl. lia. }
    exists [], s. rewrite app_nil_r in Ht. auto.
  - rewrite lrun_app in H. destruct (lrun cap s ls) as [s1|] eqn:E; [|discriminate]. cbn in H. destruct (lstep cap s1 l) as [s2|] eqn:E2; [|discriminate].
    injection H as <-. destruct t2 as [|e2 t2] using rev_ind.
    + exists (ls ++ [l]), s2. rewrite lrun_app, E. cbn. rewrite E2. rewrite app_nil_r in Ht. auto.
    + clear IHt2. destruct (lstep_trace _ _ _ _ E2) as [T|(e & T)].
      * eapply (IH s1 t1 (t2 ++ [e2])); congruence.
      * rewrite Ht, app_assoc in T. apply app_inj_tail in T as [T _]. eapply (IH s1 t1 t2); auto.
Qed.

(** ** Work left for the consumer once the ring has been stopped *)
Definition work (s : lst) : nat :=
  8 * length (l_q s) + match l_cons s with CPop => 1 | CFree _ _ => 8 | CGil _ => 7 | CLog _ _ => 6 | CTry _ => 5 | CXchg => 4 | CWarn => 3 | CRel => 2 | CEnd => 0 end.
Definition is_cons (l : llabel) : bool := match l with HCons => true | _ => false end.
Lemma work_step cap s l s' : l_stopped s = true -> lstep cap s l = Some s' ->
  l_stopped s' = true /\ work s' + (if is_cons l then 1 else 0) <= work s.
Proof.
  intros Hs H. destruct l as [p m|p|p|p| | |]; cbn [lstep is_cons] in *.
  - destruct (nth_error (l_prod s) p) as [[]|]; try discriminate. injection H as <-. unfold call. rewrite Hs. unfold work. lc. split; [auto|lia].
  - destruct (nth_error (l_prod s) p) as [[]|]; try discriminate. injection H as <-. unfold work. lc. split; [auto|lia].
  - destruct (p <? _); [|discriminate]. destruct (owner_eqb _ _); [|discriminate]. injection H as <-. unfold work. lc. split; [auto|lia].
  - destruct (owner_eqb _ _); [|discriminate]. injection H as <-. unfold work. lc. split; [auto|lia].
  - unfold cons_step in H. unfold work. destruct (l_cons s) as [|m k|m|m k|k| | | |] eqn:Ec.
    + destruct (l_q s) as [|m q] eqn:Eq; [rewrite Hs in H|]; injection H as <-; lc; rewrite ?Eq; cbn [length]; split; auto; lia.
    + injection H as <-. destruct k; lc; split; auto; lia.
    + destruct (l_gil s); try discriminate. injection H as <-. lc. split; auto; lia.
    + injection H as <-. lc. split; auto; lia.
    + destruct (k <? max_passes); [destruct (l_q s) as [|m q] eqn:Eq; [rewrite Hs in H|]|]; injection H as <-; lc; rewrite ?Eq; cbn [length]; split; auto; lia.
    + injection H as <-. lc. destruct (l_ovf s); split; auto; lia.
    + injection H as <-. lc. split; auto; lia.
    + injection H as <-. lc. split; auto; lia.
    + discriminate.
  - destruct (l_stop s); try discriminate; (destruct (owner_eqb _ _); [|discriminate]); injection H as <-; unfold work; lc; (split; [auto|lia]).
  - unfold stop_step in H. unfold work. destruct (l_stop s); try discriminate.
    + destruct (l_gil s); try discriminate. injection H as <-. lc. split; auto; lia.
    + injection H as <-. lc. split; auto; lia.
    + destruct (l_cons s) eqn:Ec; try discriminate. injection H as <-. lc. rewrite Ec. split; auto; lia.
    + destruct (l_gil s); try discriminate. injection H as <-. lc. split; auto; lia.
Qed.
Lemma work_run cap ls s s' : l_stopped s = true -> lrun cap s ls = Some s' -> length (filter is_cons ls) + work s' <= work s.
Proof.
  revert s. induction ls as [|l ls IH]; intros s Hs H; cbn [lrun filter] in *; [injection H as <-; cbn; lia|].
  destruct (lstep cap s l) as [s1|] eqn:E; [|discriminate]. destruct (work_step _ _ _ _ Hs E) as [Hs1 Hw]. specialize (IH s1 Hs1 H).
  destruct (is_cons l); cbn [length]; lia.
Qed.
