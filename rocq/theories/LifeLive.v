(** Calls and handlers come to an end: no deadlock, and no thread runs for ever. *)
From Coq Require Import List Bool Arith Lia ZifyBool Wf_nat.
From Verif Require Import ConcBase LifeModel LifeSpec LifeProofs.
Import ListNotations.

Section Live.
Context (explicit : bool).

Lemma release_blocked n s : release n s <> Blocked.
Proof. unfold release. destruct (refs s <? n); [discriminate|]. destruct ((refs s =? n) && qm s); discriminate. Qed.
Lemma blocked_why s t p : run_pc explicit t p s = Blocked ->
  p = Idle \/ (rm s = true /\ wr p = 0) \/ (qm s = true /\ wq p = 0 /\ wr p = 0) \/ (once s = Some false /\ wo p = 0 /\ wq p = 0 /\ wr p = 0).
Proof.
  intro H. pose proof (release_blocked) as Hrb. destruct p; cbn [run_pc] in H; unfold lock_r, lock_q, unlock_r, unlock_q, on_stream, on_shared, on_reader, bind in H; auto.
  all: repeat match type of H with
       | (if ?b then _ else _) = _ => destruct b eqn:?; try discriminate
       | match (if ?b then _ else _) with _ => _ end = _ => destruct b eqn:?; try discriminate
       | match release ?n ?s with _ => _ end = _ => let E := fresh in destruct (release n s) eqn:E; try discriminate; try (now apply Hrb in E)
       | match once ?s with _ => _ end = _ => destruct (once s) as [[|]|] eqn:?; try discriminate
       end.
  all: try discriminate.
  all: try (right; left; now split).
  all: try (right; right; left; now repeat split).
  all: right; right; right; now repeat split.
Qed.
Lemma rlock_why s t p : run_pc explicit t p s = Blocked -> wq p = 1 -> rm s = true.
Proof.
  intros H Hp. destruct (blocked_why s t p H) as [->|[[Hr _]|[(_ & Hq & _)|(_ & _ & Hq & _)]]]; try discriminate; auto; lia.
Qed.

Theorem not_stuck n s : reach explicit n s -> (exists t p, nth_error (pcs s) t = Some p /\ p <> Idle) -> exists t s', next explicit s (Run t) = Ok s'.
Proof.
  intros Hr (t & p & Ep & Hp). pose proof (reach_inv explicit n s Hr) as Hi.
  assert (Hgo : forall t p, nth_error (pcs s) t = Some p -> run_pc explicit t p s <> Blocked -> exists t s', next explicit s (Run t) = Ok s').
  { intros t' p' Ep' Hb. exists t'. cbn [next]. rewrite Ep'. pose proof (run_ok explicit s t' p' Hi Ep') as Hg. destruct (run_pc explicit t' p' s) as [| |s']; [congruence|destruct Hg|eauto]. }
  destruct (rm s) eqn:Er.
  { pose proof (i_r _ _ Hi) as H. rewrite Er in H. destruct (sumw_pos wr (pcs s)) as (t' & q & Hq & Hw); [cbn in H; lia|]. apply (Hgo t' q Hq). intro Hb.
    destruct (blocked_why s t' q Hb) as [->|[[_ ?]|[(_ & _ & ?)|(_ & _ & _ & ?)]]]; [cbn in Hw|..]; lia. }
  destruct (qm s) eqn:Eq.
  { pose proof (i_q _ _ Hi) as H. rewrite Eq in H. destruct (sumw_pos wq (pcs s)) as (t' & q & Hq & Hw); [cbn in H; lia|]. apply (Hgo t' q Hq). intro Hb.
    assert (rm s = true); [|congruence]. apply (rlock_why s t' q Hb). destruct q; cbn in Hw |- *; lia. }
  destruct (once s) as [[|]|] eqn:Eo.
  - apply (Hgo t p Ep). intro Hb. destruct (blocked_why s t p Hb) as [->|[[? _]|[(? & _)|(? & _)]]]; congruence.
  - pose proof (i_o _ _ Hi) as H. rewrite Eo in H. destruct (sumw_pos wo (pcs s)) as (t' & q & Hq & Hw); [lia|]. apply (Hgo t' q Hq). intro Hb.
    destruct (blocked_why s t' q Hb) as [->|[[? _]|[(? & _)|(_ & Ho & _)]]]; try congruence; [cbn in Hw|]; lia.
  - apply (Hgo t p Ep). intro Hb. destruct (blocked_why s t p Hb) as [->|[[? _]|[(? & _)|(? & _)]]]; congruence.
Qed.

(** The number of steps left, with at most [P] readers *)
Definition pre (p : pc) : nat := match p with ELock | ECheck | EMake => 1 | _ => 0 end.
Definition left (P : nat) (p : pc) : nat :=
  match p with
  | Idle => 0
  | EUnlock => 1 | EStart _ => 2 | EMake => 3 | ECheck => 4 | ELock => 5
  | SUnlock => 1 | SLoop i => 2 + (P - i) | STest => 3 + P | SLock => 4 + P
  | FUnlock => 1 | FRun => 2 | FLock => 3
  | Destroy => 1 | TRet _ => 2 | TDone _ => 3 | TUnlock _ => 4
  | RUnlock _ => 5 | RLoop _ i => 6 + (P - i) | RLock _ => 7 + P | RFlush _ => 8 + P | RFlag _ => 9 + P
  | TTest _ => 10 + P | TLock _ => 11 + P | TOnce _ => 12 + P
  | HUnlock _ => 1 | HStats => 2 | HEnd _ => 10 + P | HBody _ _ _ => 11 + P | HSelf _ => 12 + P | HLock _ => 13 + P
  | PUnlock => 1 | PBody => 2 | PSelf => 3 | PLock => 4
  end.
Definition readers_left (s : state) : nat := nrd s + sumw pre (pcs s).
Definition steps_left (s : state) : nat := sumw (left (readers_left s)) (pcs s).
Lemma left_mono P P' p : P <= P' -> left P p <= left P' p.
Proof. destruct p; cbn [left]; lia. Qed.
Lemma flush_same s : pcs (flush s) = pcs s /\ nrd (flush s) = nrd s.
Proof. unfold flush. destruct (live s =? 0); auto. Qed.
Lemma release_same n s s' : release n s = Ok s' -> pcs s' = pcs s /\ nrd s' = nrd s.
Proof. unfold release. destruct (refs s <? n); [discriminate|]. destruct ((refs s =? n) && qm s); [discriminate|]. intro H. injection H as <-. auto. Qed.
Lemma run_left s t p s' : run_pc explicit t p s = Ok s' ->
  exists p', pcs s' = upd (pcs s) t p' /\ nrd s' + pre p' <= nrd s + pre p /\ forall P, nrd s' <= P -> left P p' < left P p.
Proof.
  intro H. destruct p; cbn [run_pc] in H; unfold lock_r, lock_q, unlock_r, unlock_q, on_stream, on_shared, on_reader, bind in H.
  all: repeat match type of H with
       | (if ?b then _ else _) = _ => destruct b eqn:?; try discriminate
       | match (if ?b then _ else _) with _ => _ end = _ => destruct b eqn:?; try discriminate
       | match release ?n ?s with _ => _ end = _ => let E := fresh "E" in destruct (release n s) eqn:E; try discriminate; apply release_same in E; destruct E as [E ?]; cbn [set_qm set_rm pcs nrd] in *
       | match once ?s with _ => _ end = _ => destruct (once s) as [[|]|] eqn:?; try discriminate
       end; try discriminate.
  all: injection H as <-; eexists; split; [cbn [goto set_qm set_rm set_once emit submit pcs]; try (rewrite (proj1 (flush_same s))); try (rewrite E); reflexivity|].
  all: cbn [goto set_qm set_rm set_once emit submit nrd]; rewrite ?(proj2 (flush_same s)).
  all: repeat match goal with |- context [if ?b then _ else _] => destruct b end; try match goal with |- context [match ?k with FromStop _ => _ | FromHandler => _ end] => destruct k end.
  all: cbn [pre left]; split; [lia|intros P HP; lia].
Qed.
Lemma steps_decrease s t s' : next explicit s (Run t) = Ok s' -> steps_left s' < steps_left s.
Proof.
  cbn [next]. destruct (nth_error (pcs s) t) as [p|] eqn:Ep; [|discriminate]. intro H. destruct (run_left s t p s' H) as (p' & E & Hn & Hl).
  unfold steps_left. assert (HP : readers_left s' <= readers_left s) by (unfold readers_left; rewrite E; pose proof (sumw_upd pre _ _ _ p' Ep); lia).
  assert (HP' : nrd s' <= readers_left s') by (unfold readers_left; lia).
  rewrite E. pose proof (sumw_upd (left (readers_left s')) _ _ _ p' Ep) as U. specialize (Hl _ HP'). pose proof (sumw_le (left (readers_left s')) (left (readers_left s)) (pcs s) (fun x => left_mono _ _ x HP)). lia.
Qed.
Theorem bounded s ts s' : run_labels explicit s (map Run ts) = Ok s' -> length ts <= steps_left s.
Proof.
  revert s. induction ts as [|t ts IH]; intros s H; cbn [map run_labels length] in *; [lia|].
  destruct (next explicit s (Run t)) as [| |s1] eqn:E; try discriminate. apply steps_decrease in E. apply IH in H. lia.
Qed.
Lemma idle_dec (l : list pc) : (exists t p, nth_error l t = Some p /\ p <> Idle) \/ Forall (eq Idle) l.
Proof.
  induction l as [|p l [(t & q & H & Hn)|IH]]; [now right|left; now exists (S t), q|].
  assert (Hd : p = Idle \/ p <> Idle) by (destruct p; auto; right; discriminate).
  destruct Hd as [->|Hp]; [right; now constructor|left; now exists 0, p].
Qed.
Theorem completes n s : reach explicit n s -> exists ts s', run_labels explicit s (map Run ts) = Ok s' /\ Forall (eq Idle) (pcs s').
Proof.
  remember (steps_left s) as m. revert s Heqm. induction m as [m IH] using lt_wf_ind. intros s -> Hr.
  destruct (idle_dec (pcs s)) as [Hn|Hi]; [|exists [], s; auto]. destruct (not_stuck n s Hr Hn) as (t & s1 & E).
  destruct (IH (steps_left s1) (steps_decrease _ _ _ E) s1 eq_refl (reach_step explicit n s (Run t) s1 Hr E)) as (ts & s' & H1 & H2).
  exists (t :: ts), s'. split; [|exact H2]. cbn [map run_labels]. now rewrite E.
Qed.
End Live.
