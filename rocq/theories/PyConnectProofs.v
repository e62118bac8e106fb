(** Invariants of opening TCP streams from Python. *)
From Coq Require Import ZArith List Lia Bool.
From Verif Require Import ConcBase PyConnectModel PyConnectSpec.
Import ListNotations.

Definition b2n (b : bool) : nat := if b then 1 else 0.
Definition tsem (i : nat) (x : tst) : nat := match x with TSem j => if j =? i then 1 else 0 | _ => 0 end.
Definition tdes (i : nat) (x : tst) : nat := match x with TDestroy j => if j =? i then 1 else 0 | _ => 0 end.
Definition is_wait (p : pyst) : bool := match p with PWait => true | _ => false end.
Definition is_dying (p : pyst) : bool := match p with PDying => true | _ => false end.
Definition is_pend (x : net) : bool := match x with NPending => true | _ => false end.
Definition early (x : net) : bool := match x with NPending | NQueued _ | NGil _ | NHold _ => true | _ => false end.
Definition is_set (f : fut) : bool := match f with FSet => true | _ => false end.
Definition is_none (f : fut) : bool := match f with FNone => true | _ => false end.

(** What is known of connection [i]. *)
Record cok (i : nat) (c : conn) (es : list cev) (a : bool) : Prop := {
  k_kind : n_async c = a;
  k_nets : nets i es + b2n (is_pend (n_net c)) = 1;
  k_net : match n_net c with NQueued e | NGil e | NHold e => In (VNet i e) es | _ => True end;
  k_gone : n_py c = PGone -> n_net c = NReady;
  k_calls : calls i es = if a then b2n (negb (early (n_net c))) else 0;
  k_async : a = true -> opens i es = b2n (is_set (n_fut c)) /\ n_py c <> PWait /\ is_none (n_fut c) = (early (n_net c) || match n_net c with NDead => true | _ => false end)
            /\ match n_fut c with FSched e => In (VNet i e) es | _ => True end;
  k_sync : a = false -> n_fut c = FNone /\ opens i es <= b2n (negb (is_wait (n_py c)))
            /\ match n_net c with NGil _ | NHold _ | NDead => False | _ => True end
            /\ (n_py c = PWait -> n_sem c = b2n (negb (early (n_net c)))) /\ (early (n_net c) = false -> In (VNet i (n_ec c)) es) }.

Record inv (s : cst) (es : list cev) (ks : list bool) : Prop := {
  i_len : length ks = length (conns s);
  i_conn : forall i c, nth_error (conns s) i = Some c -> exists a, nth_error ks i = Some a /\ cok i c es a;
  i_none : forall i, length (conns s) <= i -> nets i es = 0 /\ opens i es = 0 /\ calls i es = 0 /\ sumw (tsem i) (thr s) = 0 /\ sumw (tdes i) (thr s) = 0;
  i_sem : forall i c, nth_error (conns s) i = Some c -> sumw (tsem i) (thr s) = b2n (is_wait (n_py c));
  i_des : forall i c, nth_error (conns s) i = Some c -> sumw (tdes i) (thr s) = b2n (is_dying (n_py c));
  i_holds : forall t i, nth_error (thr s) t = Some (TDestroy i) -> gil s = Some (OPy t);
  i_owner : forall t, gil s = Some (OPy t) -> nth_error (thr s) t = Some TRun \/ exists i, nth_error (thr s) t = Some (TDestroy i);
  i_hold : forall i c e, nth_error (conns s) i = Some c -> n_net c = NHold e -> gil s = Some (OWork i);
  i_work : forall i, gil s = Some (OWork i) -> exists c e, nth_error (conns s) i = Some c /\ n_net c = NHold e }.

Lemma nets_app i a b : nets i (a ++ b) = nets i a + nets i b. Proof. apply sumw_app. Qed.
Lemma opens_app i a b : opens i (a ++ b) = opens i a + opens i b. Proof. apply sumw_app. Qed.
Lemma calls_app i a b : calls i (a ++ b) = calls i a + calls i b. Proof. apply sumw_app. Qed.
Lemma nth_lt {A} (l : list A) n x : nth_error l n = Some x -> n < length l.
Proof. intro H. apply nth_error_Some. congruence. Qed.
Lemma eqb_ne a b : a <> b -> (a =? b) = false. Proof. apply Nat.eqb_neq. Qed.
Lemma in_l {A} (x : A) a b : In x a -> In x (a ++ b). Proof. intro H. apply in_or_app. auto. Qed.

Lemma kinds_app a b : kinds (a ++ b) = kinds a ++ kinds b.
Proof. induction a as [|l a IH]; [reflexivity|]. destruct l; cbn [app kinds]; rewrite ?IH; reflexivity. Qed.

Lemma cok_mono i c es a e : cok i c es a -> nets i e = 0 -> opens i e = 0 -> calls i e = 0 -> cok i c (es ++ e) a.
Proof.
  intros [A B C D E F G] X Y Z. constructor; auto.
  - rewrite nets_app. lia.
  - destruct (n_net c); auto; now apply in_l.
  - rewrite calls_app. lia.
  - intro H. destruct (F H) as (F1 & F2 & F3 & F4). rewrite opens_app, Y, Nat.add_0_r. repeat split; auto. destruct (n_fut c); auto. now apply in_l.
  - intro H. destruct (G H) as (G1 & G2 & G3 & G4 & G5). rewrite opens_app, Y, Nat.add_0_r. repeat split; auto. intro W. now apply in_l, G5.
Qed.

Lemma inv_init n : inv (cst_init n) [] [].
Proof.
  constructor; cbn [cst_init conns thr gil]; auto; try (intros i c H; destruct i; discriminate H); try (intros i c x H; destruct i; discriminate H).
  - intros i _. repeat split; auto; rewrite sumw_repeat; cbn [tsem tdes]; lia.
  - intros t i H. apply nth_error_In, repeat_spec in H. discriminate H.
  - intros t H. discriminate H.
  - intros i H. discriminate H.
Qed.

(** Steps that change connection [i] only (and the GIL). *)
Lemma inv_put s es ks i c c' g e :
  inv s es ks -> nth_error (conns s) i = Some c ->
  (forall a, nth_error ks i = Some a -> cok i c es a -> cok i c' (es ++ e) a) ->
  (forall j, j <> i -> nets j e = 0 /\ opens j e = 0 /\ calls j e = 0) ->
  n_py c' = n_py c ->
  (forall t, g = Some (OPy t) <-> gil s = Some (OPy t)) ->
  (forall j, j <> i -> g = Some (OWork j) <-> gil s = Some (OWork j)) ->
  ((exists x, n_net c' = NHold x) <-> g = Some (OWork i)) ->
  inv (put s g i c') (es ++ e) ks.
Proof.
  intros [A B C D E F G H J] Hc Hk Ho Hp Hg Hw Hh. pose proof (nth_lt _ _ _ Hc) as Lt.
  assert (Hn : forall j d, nth_error (upd (conns s) i c') j = Some d -> (j = i /\ d = c') \/ (j <> i /\ nth_error (conns s) j = Some d)).
  { intros j d. rewrite nth_upd. destruct (Nat.eqb_spec j i) as [->|Nq]; [|auto]. apply Nat.ltb_lt in Lt. rewrite Lt. intro Z. injection Z as <-. auto. }
  constructor; cbn [put gil thr conns].
  - now rewrite upd_length.
  - intros j d Hj. destruct (Hn _ _ Hj) as [[-> ->]|[Nq Hj']].
    + destruct (B i c Hc) as (a & Ha & Ka). exists a. auto.
    + destruct (B j d Hj') as (a & Ha & Ka), (Ho j Nq) as (X & Y & Z). exists a. split; [exact Ha|now apply cok_mono].
  - rewrite upd_length. intros j Hj. assert (Nq : j <> i) by lia. destruct (C j Hj) as (C1 & C2 & C3 & C4 & C5), (Ho j Nq) as (X & Y & Z).
    rewrite nets_app, opens_app, calls_app. repeat split; lia.
  - intros j d Hj. destruct (Hn _ _ Hj) as [[-> ->]|[Nq Hj']]; [rewrite Hp|]; eauto.
  - intros j d Hj. destruct (Hn _ _ Hj) as [[-> ->]|[Nq Hj']]; [rewrite Hp|]; eauto.
  - intros t j Ht. apply Hg. eauto.
  - intros t Ht. apply G. now apply Hg.
  - intros j d x Hj Hx. destruct (Hn _ _ Hj) as [[-> ->]|[Nq Hj']]; [apply Hh; eauto|]. apply Hw; eauto.
  - intros j Hj. destruct (Nat.eq_dec j i) as [->|Nq].
    + apply Hh in Hj as (x & Hx). exists c', x. split; [now apply upd_same|exact Hx].
    + apply Hw in Hj; [|exact Nq]. destruct (J j Hj) as (d & x & Hd & Hx). exists d, x. rewrite upd_other by exact Nq. auto.
Qed.

(** Steps of a Python thread that change connection [i]. *)
Lemma inv_put_thr s es ks t x0 x i c c' e :
  inv s es ks -> nth_error (conns s) i = Some c -> nth_error (thr s) t = Some x0 ->
  (forall a, nth_error ks i = Some a -> cok i c es a -> cok i c' (es ++ e) a) ->
  (forall j, j <> i -> nets j e = 0 /\ opens j e = 0 /\ calls j e = 0) ->
  n_net c' = n_net c -> (gil s = None \/ gil s = Some (OPy t)) ->
  (x = TRun \/ x = TDestroy i) ->
  tsem i x0 + b2n (is_wait (n_py c')) = b2n (is_wait (n_py c)) + tsem i x ->
  tdes i x0 + b2n (is_dying (n_py c')) = b2n (is_dying (n_py c)) + tdes i x ->
  (forall j, j <> i -> tsem j x0 = 0 /\ tdes j x0 = 0) ->
  inv (put_thr s (Some (OPy t)) t x i c') (es ++ e) ks.
Proof.
  intros [A B C D E F G H J] Hc Ht Hk Ho Hp Hg Hx Hs Hd Hz. pose proof (nth_lt _ _ _ Hc) as Lt. pose proof (nth_lt _ _ _ Ht) as Lt2.
  assert (Hn : forall j d, nth_error (upd (conns s) i c') j = Some d -> (j = i /\ d = c') \/ (j <> i /\ nth_error (conns s) j = Some d)).
  { intros j d. rewrite nth_upd. destruct (Nat.eqb_spec j i) as [->|Nq]; [|auto]. apply Nat.ltb_lt in Lt. rewrite Lt. intro Z. injection Z as <-. auto. }
  assert (Hs' : forall j, sumw (tsem j) (upd (thr s) t x) + tsem j x0 = sumw (tsem j) (thr s) + tsem j x) by (intro j; now apply sumw_upd).
  assert (Hd' : forall j, sumw (tdes j) (upd (thr s) t x) + tdes j x0 = sumw (tdes j) (thr s) + tdes j x) by (intro j; now apply sumw_upd).
  assert (Hx' : forall j, j <> i -> tsem j x = 0 /\ tdes j x = 0).
  { intros j Nq. destruct Hx as [-> | ->]; cbn [tsem tdes]; rewrite ?(eqb_ne i j) by congruence; auto. }
  constructor; cbn [put_thr gil thr conns].
  - now rewrite upd_length.
  - intros j d Hj. destruct (Hn _ _ Hj) as [[-> ->]|[Nq Hj']].
    + destruct (B i c Hc) as (a & Ha & Ka). exists a. auto.
    + destruct (B j d Hj') as (a & Ha & Ka), (Ho j Nq) as (X & Y & Z). exists a. split; [exact Ha|now apply cok_mono].
  - rewrite upd_length. intros j Hj. assert (Nq : j <> i) by lia. destruct (C j Hj) as (C1 & C2 & C3 & C4 & C5), (Ho j Nq) as (X & Y & Z), (Hx' j Nq), (Hz j Nq).
    specialize (Hs' j). specialize (Hd' j). rewrite nets_app, opens_app, calls_app. repeat split; lia.
  - intros j d Hj. specialize (Hs' j). destruct (Hn _ _ Hj) as [[-> ->]|[Nq Hj']].
    + specialize (D _ _ Hc). lia.
    + specialize (D _ _ Hj'). destruct (Hx' j Nq), (Hz j Nq). lia.
  - intros j d Hj. specialize (Hd' j). destruct (Hn _ _ Hj) as [[-> ->]|[Nq Hj']].
    + specialize (E _ _ Hc). lia.
    + specialize (E _ _ Hj'). destruct (Hx' j Nq), (Hz j Nq). lia.
  - intros u j Hu. rewrite nth_upd in Hu. destruct (Nat.eqb_spec u t) as [->|Nu]; [reflexivity|]. specialize (F u j Hu). destruct Hg as [Hg|Hg]; congruence.
  - intros u Hu. injection Hu as <-. rewrite upd_same by exact Lt2. destruct Hx as [-> | ->]; eauto.
  - intros j d y Hj Hy. exfalso. destruct (Hn _ _ Hj) as [[-> ->]|[Nq Hj']].
    + rewrite Hp in Hy. specialize (H _ _ _ Hc Hy). destruct Hg; congruence.
    + specialize (H _ _ _ Hj' Hy). destruct Hg; congruence.
  - discriminate.
Qed.

Lemma runs_eq s t : runs s t = true -> nth_error (thr s) t = Some TRun /\ gil s = Some (OPy t).
Proof.
  unfold runs. destruct (nth_error (thr s) t) as [[]|]; try discriminate. destruct (gil s) as [[u|]|]; try discriminate.
  intro H. apply Nat.eqb_eq in H as ->. auto.
Qed.

Lemma weight_in (w : nat -> tst -> nat) s t x i n : nth_error (thr s) t = Some x -> w i x = 1 -> sumw (w i) (thr s) = n -> 1 <= n.
Proof. intros H W <-. pose proof (sumw_ge (w i) _ _ _ H). lia. Qed.

(** A thread that waits for a connection, or destroys it. *)
Lemma sem_conn s es ks t i : inv s es ks -> nth_error (thr s) t = Some (TSem i) -> exists c, nth_error (conns s) i = Some c /\ n_py c = PWait.
Proof.
  intros I H. assert (W : 1 <= sumw (tsem i) (thr s)).
  { pose proof (sumw_ge (tsem i) _ _ _ H) as G. cbn [tsem] in G. rewrite Nat.eqb_refl in G. exact G. }
  destruct (nth_error (conns s) i) as [c|] eqn:E.
  - exists c. split; [reflexivity|]. rewrite (i_sem _ _ _ I _ _ E) in W. destruct (n_py c); cbn in W; try lia. reflexivity.
  - apply nth_error_None in E. destruct (i_none _ _ _ I _ E) as (_ & _ & _ & Z & _). lia.
Qed.
Lemma des_conn s es ks t i : inv s es ks -> nth_error (thr s) t = Some (TDestroy i) -> exists c, nth_error (conns s) i = Some c /\ n_py c = PDying.
Proof.
  intros I H. assert (W : 1 <= sumw (tdes i) (thr s)).
  { pose proof (sumw_ge (tdes i) _ _ _ H) as G. cbn [tdes] in G. rewrite Nat.eqb_refl in G. exact G. }
  destruct (nth_error (conns s) i) as [c|] eqn:E.
  - exists c. split; [reflexivity|]. rewrite (i_des _ _ _ I _ _ E) in W. destruct (n_py c); cbn in W; try lia. reflexivity.
  - apply nth_error_None in E. destruct (i_none _ _ _ I _ E) as (_ & _ & _ & _ & Z). lia.
Qed.

Lemma inv_gil s es ks g :
  inv s es ks -> (forall t i, nth_error (thr s) t = Some (TDestroy i) -> g = Some (OPy t)) ->
  (forall t, g = Some (OPy t) -> nth_error (thr s) t = Some TRun \/ exists i, nth_error (thr s) t = Some (TDestroy i)) ->
  (forall i c e, nth_error (conns s) i = Some c -> n_net c = NHold e -> g = Some (OWork i)) ->
  (forall i, g <> Some (OWork i)) ->
  inv {| gil := g; thr := thr s; conns := conns s |} es ks.
Proof. intros [A B C D E F G H J] X Y Z W. constructor; auto. cbn [gil]. intros i Hi. now apply W in Hi. Qed.

Ltac oth := solve [let j := fresh in let Nq := fresh in intros j Nq; cbv [nets opens calls]; cbn [sumw tsem tdes]; rewrite ?(eqb_ne _ j) by congruence; auto].

Lemma inv_open s es ks t (a : bool) :
  inv s es ks -> nth_error (thr s) t = Some TRun -> gil s = Some (OPy t) ->
  inv {| gil := if a then gil s else None; thr := if a then thr s else upd (thr s) t (TSem (length (conns s)));
         conns := conns s ++ [{| n_async := a; n_net := NPending; n_py := if a then PHeld else PWait; n_fut := FNone; n_sem := 0; n_ec := 0 |}] |}
      es (ks ++ [a]).
Proof.
  intros [A B C D E F G H J] Ht Hg. set (i := length (conns s)) in *. pose proof (nth_lt _ _ _ Ht) as Lt.
  match goal with |- inv {| gil := _; thr := ?th; conns := _ ++ [?c0] |} _ _ => set (c := c0); set (th' := th) end.
  destruct (C i (Nat.le_refl _)) as (C1 & C2 & C3 & C4 & C5).
  assert (Hn : forall j d, nth_error (conns s ++ [c]) j = Some d -> (j = i /\ d = c) \/ (j < i /\ nth_error (conns s) j = Some d)).
  { intros j d Hj. destruct (Nat.lt_ge_cases j i) as [L|L].
    - right. split; [exact L|]. now rewrite nth_error_app1 in Hj.
    - rewrite nth_error_app2 in Hj by exact L. fold i in Hj. destruct (j - i) as [|m] eqn:Em; [|destruct m; discriminate Hj]. injection Hj as <-. left. split; [lia|reflexivity]. }
  assert (Hs : forall j, sumw (tsem j) th' = sumw (tsem j) (thr s) + if a then 0 else if i =? j then 1 else 0).
  { intro j. unfold th'. destruct a; [lia|]. pose proof (sumw_upd (tsem j) _ _ _ (TSem i) Ht) as Q. cbn [tsem] in Q. lia. }
  assert (Hd : forall j, sumw (tdes j) th' = sumw (tdes j) (thr s)).
  { intro j. unfold th'. destruct a; [reflexivity|]. pose proof (sumw_upd (tdes j) _ _ _ (TSem i) Ht) as Q. cbn [tdes] in Q. lia. }
  constructor; cbn [gil thr conns].
  - rewrite !app_length, A. reflexivity.
  - intros j d Hj. destruct (Hn _ _ Hj) as [[-> ->]|[L Hj']].
    + exists a. split; [rewrite nth_error_app2, A by lia; fold i; now rewrite Nat.sub_diag|].
      constructor; cbn [c n_async n_net n_py n_fut n_sem n_ec is_pend early b2n negb]; auto; try lia.
      * destruct a; discriminate.
      * rewrite C3. now destruct a.
      * intros ->. repeat split; auto. discriminate.
      * intros ->. repeat split; auto; try lia.
    + destruct (B j d Hj') as (b & Hb & Kb). exists b. split; [|exact Kb]. rewrite nth_error_app1; [exact Hb|]. now apply nth_lt in Hb.
  - rewrite app_length. cbn [length]. fold i. intros j Hj. destruct (C j) as (X1 & X2 & X3 & X4 & X5); [fold i; lia|].
    rewrite Hs, Hd, (eqb_ne i j) by lia. repeat split; auto. destruct a; lia.
  - intros j d Hj. rewrite Hs. destruct (Hn _ _ Hj) as [[-> ->]|[L Hj']].
    + rewrite C4, Nat.eqb_refl. cbn [c n_py]. now destruct a.
    + rewrite (D _ _ Hj'), (eqb_ne i j) by lia. destruct a; lia.
  - intros j d Hj. rewrite Hd. destruct (Hn _ _ Hj) as [[-> ->]|[L Hj']]; [|eauto]. rewrite C5. cbn [c n_py]. now destruct a.
  - intros u j Hu. exfalso. assert (X : nth_error (thr s) u = Some (TDestroy j) /\ u <> t).
    { unfold th' in Hu. destruct a; [|rewrite nth_upd in Hu]; destruct (Nat.eq_dec u t) as [->|Nu].
      - congruence.
      - auto.
      - rewrite Nat.eqb_refl in Hu. destruct (t <? length (thr s)); discriminate Hu.
      - rewrite (eqb_ne u t Nu) in Hu. auto. }
    destruct X as [X Nu]. specialize (F _ _ X). congruence.
  - intros u Hu. destruct a; [auto|discriminate Hu].
  - intros j d e Hj He. destruct (Hn _ _ Hj) as [[-> ->]|[L Hj']]; [discriminate He|]. specialize (H _ _ _ Hj' He). congruence.
  - intros j Hj. destruct a; [congruence|discriminate Hj].
Qed.

Lemma kinds_step l : kinds [l] = match l with LOpen _ a => [a] | _ => [] end.
Proof. destruct l; reflexivity. Qed.

Ltac cokgo K := destruct K as [K1 K2 K3 K4 K5 K6 K7]; constructor; cbn [set_net set_py set_fut set_sem n_async n_net n_py n_fut n_sem n_ec is_pend early b2n negb is_set is_none is_wait] in *; rewrite ?app_nil_r; auto.

Lemma inv_step s es ks l out :
  inv s es ks -> cstep s l = Some out ->
  match out with Ok s' e => inv s' (es ++ e) (ks ++ kinds [l]) | Ub => False end.
Proof.
  intros I R. rewrite kinds_step. destruct l as [t|t|t a|t i|t i|t|t|t|i e|i|i|i ok|i]; cbn [cstep] in R; rewrite ?app_nil_r.
  - (* LAcq *) destruct (nth_error (thr s) t) as [[| |]|] eqn:Ht; try discriminate. destruct (gil s) eqn:Hg; [discriminate|]. injection R as <-. rewrite app_nil_r.
    apply inv_gil; auto; try discriminate.
    + intros u i Hu. pose proof (i_holds _ _ _ I _ _ Hu). congruence.
    + intros u Hu. injection Hu as <-. auto.
    + intros i c x Hc Hx. pose proof (i_hold _ _ _ I _ _ _ Hc Hx). congruence.
  - (* LRel *) destruct (runs s t) eqn:Hr; [|discriminate]. apply runs_eq in Hr as [Ht Hg]. injection R as <-. rewrite app_nil_r.
    apply inv_gil; auto; try discriminate.
    + intros u i Hu. pose proof (i_holds _ _ _ I _ _ Hu) as X. rewrite Hg in X. injection X as <-. congruence.
    + intros i c x Hc Hx. pose proof (i_hold _ _ _ I _ _ _ Hc Hx). congruence.
  - (* LOpen *) destruct (runs s t) eqn:Hr; [|discriminate]. apply runs_eq in Hr as [Ht Hg]. injection R as <-. rewrite app_nil_r. now apply inv_open.
  - (* LLoop *) destruct (runs s t) eqn:Hr; [|discriminate]. apply runs_eq in Hr as [Ht Hg]. destruct (nth_error (conns s) i) as [c|] eqn:Hc; [|discriminate].
    destruct (n_fut c) as [|e|] eqn:Hf; try discriminate. injection R as <-. eapply inv_put; try eassumption; try reflexivity; try oth; try tauto.
    + intros a Ha K. destruct a.
      * destruct K as [K1 K2 K3 K4 K5 K6 K7]. destruct (K6 eq_refl) as (X1 & X2 & X3 & X4). rewrite Hf in *. cbn [is_set b2n is_none] in *.
        constructor; cbn [set_fut n_async n_net n_py n_fut n_sem n_ec]; auto; try discriminate.
        -- rewrite nets_app. cbv [nets] in *. cbn [sumw] in *. lia.
        -- destruct (n_net c); auto; now apply in_l.
        -- rewrite calls_app. unfold calls at 2. cbn [sumw]. lia.
        -- intros _. cbn [is_set is_none b2n]. rewrite opens_app. unfold opens at 2. cbn [sumw]. rewrite Nat.eqb_refl. repeat split; auto; lia.
      * destruct K as [_ _ _ _ _ _ K7]. destruct (K7 eq_refl) as (X & _). congruence.
    + rewrite Hg. split; [|discriminate]. intros (x & Hx). cbn [set_fut n_net] in Hx. pose proof (i_hold _ _ _ I _ _ _ Hc Hx). congruence.
  - (* LDrop *) destruct (runs s t) eqn:Hr; [|discriminate]. apply runs_eq in Hr as [Ht Hg]. destruct (nth_error (conns s) i) as [c|] eqn:Hc; [|discriminate].
    destruct (n_py c) eqn:Hp; try discriminate. injection R as <-. rewrite Hg. eapply inv_put_thr; try eassumption; try reflexivity; try oth; auto.
    + intros a Ha K. cokgo K; try discriminate.
      * intro Z. destruct (K6 Z) as (X1 & X2 & X3 & X4). repeat split; auto. discriminate.
      * intro Z. destruct (K7 Z) as (X1 & X2 & X3 & X4 & X5). rewrite Hp in *. repeat split; auto. discriminate.
    + cbn [tsem set_py n_py]. rewrite Hp. reflexivity.
    + cbn [tdes set_py n_py]. rewrite Hp, Nat.eqb_refl. reflexivity.
  - (* LFreed *) destruct (nth_error (thr s) t) as [[|j|i]|] eqn:Ht; try discriminate. destruct (nth_error (conns s) i) as [c|] eqn:Hc; [|discriminate].
    destruct (n_net c) eqn:Hn; try discriminate. injection R as <-. pose proof (i_holds _ _ _ I _ _ Ht) as Hg. rewrite Hg.
    destruct (des_conn _ _ _ _ _ I Ht) as (c0 & Hc0 & Hp). rewrite Hc in Hc0. injection Hc0 as <-.
    eapply inv_put_thr; try eassumption; try reflexivity; auto; try oth.
    + intros a Ha K. apply (cok_mono _ _ _ _ [VFreed i]) in K; try reflexivity. cokgo K.
      * intro Z. destruct (K6 Z) as (X1 & X2 & X3 & X4). repeat split; auto. discriminate.
      * intro Z. destruct (K7 Z) as (X1 & X2 & X3 & X4 & X5). rewrite Hp in *. repeat split; auto. discriminate.
    + cbn [tsem set_py n_py]. rewrite Hp. reflexivity.
    + cbn [tdes set_py n_py]. rewrite Hp, Nat.eqb_refl. reflexivity.
  - (* LSem *) destruct (nth_error (thr s) t) as [[|i|j]|] eqn:Ht; try discriminate. destruct (gil s) eqn:Hg; [discriminate|].
    destruct (nth_error (conns s) i) as [c|] eqn:Hc; [|discriminate]. destruct (n_sem c) as [|m] eqn:Hs; [discriminate|]. injection R as <-.
    destruct (sem_conn _ _ _ _ _ I Ht) as (c0 & Hc0 & Hp). rewrite Hc in Hc0. injection Hc0 as <-.
    assert (Hk : forall p, p = PHeld \/ p = PDying -> forall a, nth_error ks i = Some a -> cok i c es a -> cok i (set_py (set_sem c m (n_ec c)) p) (es ++ [VOpen i (n_ec c)]) a).
    { intros p Hpp a Ha K. destruct a; [destruct K as [_ _ _ _ _ K6 _]; destruct (K6 eq_refl) as (_ & X & _); congruence|].
      destruct K as [K1 K2 K3 K4 K5 K6 K7]. destruct (K7 eq_refl) as (X1 & X2 & X3 & X4 & X5). specialize (X4 Hp). rewrite Hp in X2. cbn [is_wait negb b2n] in X2.
      constructor; cbn [set_py set_sem n_async n_net n_py n_fut n_sem n_ec]; auto; try discriminate.
      - rewrite nets_app. unfold nets at 2. cbn [sumw]. lia.
      - destruct (n_net c); auto; now apply in_l.
      - intros ->. destruct Hpp; discriminate.
      - rewrite calls_app. unfold calls at 2. cbn [sumw]. lia.
      - intros _. rewrite opens_app. unfold opens at 2. cbn [sumw]. rewrite Nat.eqb_refl. repeat split; auto.
        + destruct Hpp as [-> | ->]; cbn [is_wait negb b2n]; lia.
        + destruct Hpp as [-> | ->]; discriminate.
        + intro W. now apply in_l, X5. }
    assert (Z : forall j, j <> i -> tsem j (TSem i) = 0 /\ tdes j (TSem i) = 0) by (intros j Nq; cbn [tsem tdes]; rewrite (eqb_ne i j) by congruence; auto).
    destruct (n_ec c =? 0); eapply inv_put_thr; try eassumption; try reflexivity; auto; try oth; try (cbn [tsem tdes set_py n_py]; rewrite Hp, ?Nat.eqb_refl; reflexivity).
  - (* LIntr *) destruct (nth_error (thr s) t) as [[|i|j]|] eqn:Ht; try discriminate. destruct (gil s) eqn:Hg; [discriminate|].
    destruct (nth_error (conns s) i) as [c|] eqn:Hc; [|discriminate]. injection R as <-.
    destruct (sem_conn _ _ _ _ _ I Ht) as (c0 & Hc0 & Hp). rewrite Hc in Hc0. injection Hc0 as <-.
    eapply inv_put_thr; try eassumption; try reflexivity; auto; try oth; try (cbn [tsem tdes set_py n_py]; rewrite Hp, ?Nat.eqb_refl; reflexivity).
    + intros a Ha K. apply (cok_mono _ _ _ _ [VIntr i]) in K; try reflexivity. cokgo K; try discriminate.
      * intro Z. destruct (K6 Z) as (X1 & X2 & X3 & X4). congruence.
      * intro Z. destruct (K7 Z) as (X1 & X2 & X3 & X4 & X5). rewrite Hp in X2. cbn [is_wait negb b2n] in X2. repeat split; auto; try lia; try discriminate.
  - (* LNet *) destruct (nth_error (conns s) i) as [c|] eqn:Hc; [|discriminate]. destruct (n_net c) eqn:Hn; try discriminate. injection R as <-.
    eapply inv_put; try eassumption; try reflexivity; try oth; try tauto.
    + intros a Ha K. destruct K as [K1 K2 K3 K4 K5 K6 K7]. rewrite Hn in *. cbn [is_pend early b2n negb orb] in *.
      constructor; cbn [set_net n_async n_net n_py n_fut n_sem n_ec is_pend early b2n negb orb]; auto.
      * rewrite nets_app. unfold nets at 2. cbn [sumw]. rewrite Nat.eqb_refl. lia.
      * apply in_or_app. right. now left.
      * intro Z. specialize (K4 Z). discriminate.
      * rewrite calls_app. unfold calls at 2. cbn [sumw]. destruct a; lia.
      * intro Z. destruct (K6 Z) as (X1 & X2 & X3 & X4). rewrite opens_app. unfold opens at 2. cbn [sumw]. repeat split; auto; [lia|]. destruct (n_fut c); auto. now apply in_l.
      * intro Z. destruct (K7 Z) as (X1 & X2 & X3 & X4 & X5). rewrite opens_app. unfold opens at 2. cbn [sumw]. repeat split; auto; [lia|discriminate].
    + cbn [set_net n_net]. split; [intros (x & Hx); discriminate Hx|]. intro Z. destruct (i_work _ _ _ I _ Z) as (d & x & Hd & Hx). congruence.
  - (* LHandle *) destruct (nth_error (conns s) i) as [c|] eqn:Hc; [|discriminate]. destruct (n_net c) eqn:Hn; try discriminate.
    destruct (i_conn _ _ _ I _ _ Hc) as (a0 & Ha0 & K0).
    destruct (gone c) eqn:Hgo.
    { unfold gone in Hgo. destruct (n_py c) eqn:Hp; try discriminate. destruct K0 as [_ _ _ K4 _ _ _]. specialize (K4 Hp). congruence. }
    injection R as <-.
    assert (Hw : gil s <> Some (OWork i)) by (intro Z; destruct (i_work _ _ _ I _ Z) as (d & x & Hd & Hx); congruence).
    destruct (n_async c) eqn:Has; eapply inv_put; try eassumption; try reflexivity; try oth; try tauto;
      try (cbn [set_net set_sem n_net]; split; [intros (x & Hx); discriminate Hx|intro Z; now apply Hw in Z]).
    + intros a Ha K. destruct K as [K1 K2 K3 K4 K5 K6 K7]. rewrite Hn in *. cbn [is_pend early b2n negb orb] in *.
      constructor; cbn [set_net n_async n_net n_py n_fut n_sem n_ec is_pend early b2n negb orb]; rewrite ?app_nil_r; auto; try congruence.
      * intro Z. specialize (K4 Z). discriminate.
    + intros a Ha K. destruct K as [K1 K2 K3 K4 K5 K6 K7]. rewrite Hn in *. cbn [is_pend early b2n negb orb] in *.
      assert (a = false) as -> by congruence. destruct (K7 eq_refl) as (X1 & X2 & X3 & X4 & X5).
      constructor; cbn [set_net set_sem n_async n_net n_py n_fut n_sem n_ec is_pend early b2n negb orb]; rewrite ?app_nil_r; auto; try discriminate.
      * intro Z. specialize (K4 Z). discriminate.
      * intros _. repeat split; auto.
  - (* LGil *) destruct (nth_error (conns s) i) as [c|] eqn:Hc; [|discriminate]. destruct (gil s) eqn:Hg; [discriminate|]. destruct (n_net c) eqn:Hn; try discriminate.
    injection R as <-. eapply inv_put; try eassumption; try reflexivity; try oth.
    + intros a Ha K. destruct K as [K1 K2 K3 K4 K5 K6 K7]. rewrite Hn in *. cbn [is_pend early b2n negb orb] in *.
      constructor; cbn [set_net n_async n_net n_py n_fut n_sem n_ec is_pend early b2n negb orb]; rewrite ?app_nil_r; auto.
      * intro Z. specialize (K4 Z). discriminate.
    + intro t. rewrite Hg. split; discriminate.
    + intros j Nq. rewrite Hg. split; [intro Z; injection Z as Z; congruence|discriminate].
    + cbn [set_net n_net]. split; eauto.
  - (* LCall *) destruct (nth_error (conns s) i) as [c|] eqn:Hc; [|discriminate]. destruct (gil s) as [[u|i']|] eqn:Hg; try discriminate.
    destruct (Nat.eqb_spec i' i) as [->|]; [|discriminate]. destruct (n_net c) eqn:Hn; try discriminate. injection R as <-.
    eapply inv_put; try eassumption; try reflexivity; try oth.
    + intros a Ha K. destruct a; [|destruct K as [_ _ _ _ _ _ K7]; destruct (K7 eq_refl) as (_ & _ & X & _); now rewrite Hn in X].
      destruct K as [K1 K2 K3 K4 K5 K6 K7]. destruct (K6 eq_refl) as (X1 & X2 & X3 & X4). rewrite Hn in *. cbn [is_pend early b2n negb orb] in *.
      assert (N0 : nets i [VCall i e] = 0) by reflexivity. assert (O0 : opens i [VCall i e] = 0) by reflexivity.
      assert (C1 : calls i [VCall i e] = 1) by (unfold calls; cbn [sumw]; rewrite Nat.eqb_refl; reflexivity).
      assert (F0 : n_fut c = FNone) by (destruct (n_fut c); [reflexivity|discriminate X3|discriminate X3]).
      destruct ok; constructor; cbn [set_net set_fut n_async n_net n_py n_fut n_sem n_ec is_pend early b2n negb orb is_none is_set];
        rewrite ?nets_app, ?calls_app, ?N0, ?C1, ?Nat.add_0_r; auto; try discriminate; try lia.
      * intro Z. specialize (K4 Z). discriminate.
      * intros _. rewrite opens_app, O0, X1, F0. repeat split; auto. now apply in_l.
      * intro Z. specialize (K4 Z). discriminate.
      * intros _. rewrite opens_app, O0, X1, F0. repeat split; auto.
    + destruct ok; reflexivity.
    + intro t. rewrite Hg. split; discriminate.
    + intros j Nq. rewrite Hg. split; [discriminate|intro Z; injection Z as Z; congruence].
    + split; [|discriminate]. intros (x & Hx). destruct ok; discriminate Hx.
  - (* LWakeup *) destruct (nth_error (conns s) i) as [c|] eqn:Hc; [|discriminate]. destruct (n_net c) eqn:Hn; try discriminate.
    destruct (i_conn _ _ _ I _ _ Hc) as (a0 & Ha0 & K0).
    destruct (gone c) eqn:Hgo.
    { unfold gone in Hgo. destruct (n_py c) eqn:Hp; try discriminate. destruct K0 as [_ _ _ K4 _ _ _]. specialize (K4 Hp). congruence. }
    injection R as <-. eapply inv_put; try eassumption; try reflexivity; try oth; try tauto.
    + intros a Ha K. destruct K as [K1 K2 K3 K4 K5 K6 K7]. rewrite Hn in *. cbn [is_pend early b2n negb orb] in *.
      constructor; cbn [set_net n_async n_net n_py n_fut n_sem n_ec is_pend early b2n negb orb]; rewrite ?app_nil_r; auto.
    + cbn [set_net n_net]. split; [intros (x & Hx); discriminate Hx|]. intro Z. destruct (i_work _ _ _ I _ Z) as (d & x & Hd & Hx). congruence.
Qed.

Lemma crun_app a : forall b s es,
  crun s (a ++ b) es = match crun s a es with Some (Ok s' es') => crun s' b es' | r => r end.
Proof.
  induction a as [|l a IH]; intros b s es; cbn [app crun]; [reflexivity|]. destruct (cstep s l) as [[s' e|]|]; auto.
Qed.

Lemma inv_run n ls out : crun (cst_init n) ls [] = Some out -> match out with Ok s es => inv s es (kinds ls) | Ub => False end.
Proof.
  revert out. induction ls as [|l ls IH] using rev_ind; intros out R; [injection R as <-; apply inv_init|].
  rewrite crun_app in R. destruct (crun (cst_init n) ls []) as [[s es|]|] eqn:E; try discriminate; specialize (IH _ eq_refl); [|destruct IH].
  cbn [crun] in R. destruct (cstep s l) as [[s' e|]|] eqn:St; try discriminate; injection R as <-; pose proof (inv_step _ _ _ _ _ IH St) as X; [|exact X].
  now rewrite kinds_app.
Qed.
