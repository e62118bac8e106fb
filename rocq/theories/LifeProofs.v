(** The invariant of the life of a stream. *)
From Coq Require Import List Bool Arith Lia ZifyBool.
From Verif Require Import ConcBase LifeModel LifeSpec.
Import ListNotations.

(** Counts of events *)
Definition is_made (r : nat) (e : event) : nat := match e with Made x => Nat.b2n (r =? x) | _ => 0 end.
Definition is_started (r : nat) (e : event) : nat := match e with Started x => Nat.b2n (r =? x) | _ => 0 end.
Definition is_stopped (r : nat) (e : event) : nat := match e with Stopped x => Nat.b2n (r =? x) | _ => 0 end.
Definition is_ret (e : event) : nat := match e with StopRet => 1 | _ => 0 end.
Definition is_gone (e : event) : nat := match e with Gone => 1 | _ => 0 end.
Lemma sumw_in {A} (w : A -> nat) x l : In x l -> w x <= sumw w l.
Proof. induction l as [|y l IH]; intros []; cbn [sumw]; [subst; lia|]. specialize (IH H). lia. Qed.
Lemma sumw_out {A} (w : A -> nat) l : (forall x, In x l -> w x = 0) -> sumw w l = 0.
Proof. induction l as [|y l IH]; intro H; cbn [sumw]; [reflexivity|]. rewrite (H y), IH; auto using in_eq, in_cons. Qed.
Lemma sumw_exists {A} (w : A -> nat) l : 0 < sumw w l -> exists x, In x l /\ 0 < w x.
Proof.
  induction l as [|y l IH]; cbn [sumw]; intro H; [lia|]. destruct (w y) as [|k] eqn:E.
  - destruct IH as (x & Hx & Hw); [lia|]. exists x. split; [now right|exact Hw].
  - exists y. split; [now left|lia].
Qed.
Lemma made_in r tr : In (Made r) tr <-> 0 < sumw (is_made r) tr.
Proof.
  split; intro H; [apply (sumw_in (is_made r)) in H; cbn [is_made] in H; rewrite Nat.eqb_refl in H; exact H|].
  apply sumw_exists in H. destruct H as (x & Hx & Hw). destruct x; cbn [is_made] in Hw; try lia. destruct (Nat.eqb_spec r r0) as [->|]; cbn in Hw; [exact Hx|lia].
Qed.
Lemma started_in r tr : In (Started r) tr <-> 0 < sumw (is_started r) tr.
Proof.
  split; intro H; [apply (sumw_in (is_started r)) in H; cbn [is_started] in H; rewrite Nat.eqb_refl in H; exact H|].
  apply sumw_exists in H. destruct H as (x & Hx & Hw). destruct x; cbn [is_started] in Hw; try lia. destruct (Nat.eqb_spec r r0) as [->|]; cbn in Hw; [exact Hx|lia].
Qed.
Lemma stopped_in r tr : In (Stopped r) tr <-> 0 < sumw (is_stopped r) tr.
Proof.
  split; intro H; [apply (sumw_in (is_stopped r)) in H; cbn [is_stopped] in H; rewrite Nat.eqb_refl in H; exact H|].
  apply sumw_exists in H. destruct H as (x & Hx & Hw). destruct x; cbn [is_stopped] in Hw; try lia. destruct (Nat.eqb_spec r r0) as [->|]; cbn in Hw; [exact Hx|lia].
Qed.
Lemma ret_in tr : In StopRet tr <-> 0 < sumw is_ret tr.
Proof.
  split; intro H; [apply (sumw_in is_ret) in H; exact H|].
  apply sumw_exists in H. destruct H as (x & Hx & Hw). destruct x; cbn [is_ret] in Hw; try lia. exact Hx.
Qed.
Lemma gone_in tr : In Gone tr <-> 0 < sumw is_gone tr.
Proof.
  split; intro H; [apply (sumw_in is_gone) in H; exact H|].
  apply sumw_exists in H. destruct H as (x & Hx & Hw). destruct x; cbn [is_gone] in Hw; try lia. exact Hx.
Qed.
Lemma ordered_snoc x tr e : ordered x tr -> allowed x tr e -> ordered x (tr ++ [e]).
Proof.
  intros H He a e' b E. destruct b as [|b0 b] using rev_ind.
  - apply app_inj_tail in E. destruct E as [<- <-]. exact He.
  - clear IHb. rewrite app_comm_cons, app_assoc in E. apply app_inj_tail in E. destruct E as [E _]. now apply (H a e' b).
Qed.

(** Classes of program points *)
Definition wq (p : pc) : nat :=       (* hold queue_mutex *)
  match p with
  | FRun | FUnlock | TTest _ | TUnlock _ | RFlag _ | RFlush _ | RLock _ | RLoop _ _ | RUnlock _
  | HSelf _ | HBody _ _ _ | HEnd _ | HStats | HUnlock _ | PSelf | PBody | PUnlock => 1
  | _ => 0
  end.
Definition wh (p : pc) : nat :=       (* handlers that have found the stream, and stop_received *)
  match p with
  | RFlag _ | RFlush _ | RLock _ | RLoop _ _ | RUnlock _ | HBody _ _ _ | HEnd _ | HStats | HUnlock false | PBody => 1
  | _ => 0
  end.
Definition wx (p : pc) : nat :=       (* hold queue_mutex, others *)
  match p with FRun | FUnlock | TTest _ | TUnlock _ | HSelf _ | HUnlock true | PSelf | PUnlock => 1 | _ => 0 end.
Definition wr (p : pc) : nat :=       (* hold reader_mutex *)
  match p with ECheck | EMake | EStart _ | EUnlock | STest | SLoop _ | SUnlock | RLoop _ _ | RUnlock _ => 1 | _ => 0 end.
Definition wo (p : pc) : nat :=       (* run the function of call_once *)
  match p with
  | TLock _ | TTest _ | TUnlock _ | TDone _
  | RFlag (FromStop _) | RFlush (FromStop _) | RLock (FromStop _) | RLoop (FromStop _) _ | RUnlock (FromStop _) => 1
  | _ => 0
  end.
Definition wf (p : pc) : nat := match p with RFlush _ | RLock _ | RLoop _ _ => 1 | _ => 0 end.
Definition wfl (p : pc) : nat := match p with RFlush _ => 1 | _ => 0 end.
Definition wrl (p : pc) : nat := match p with RLoop _ _ => 1 | _ => 0 end.
Definition wb (p : pc) : nat := match p with RFlag _ | HBody _ _ _ | HEnd _ | PBody => 1 | _ => 0 end.
Definition wst (p : pc) : nat := match p with HBody _ _ true | HEnd true => 1 | _ => 0 end.
Definition wu (p : pc) : nat := match p with TUnlock _ | RUnlock _ | TDone _ => 1 | _ => 0 end.
Definition wdn (p : pc) : nat := match p with TDone _ => 1 | _ => 0 end.
Definition wtr (p : pc) : nat := match p with TRet _ | Destroy => 1 | _ => 0 end.
Definition wde (p : pc) : nat := match p with Destroy => 1 | _ => 0 end.
Definition wd (p : pc) : nat :=       (* the destructor *)
  match p with
  | TOnce true | TLock true | TTest true | TUnlock true | TDone true | TRet true
  | RFlag (FromStop true) | RFlush (FromStop true) | RLock (FromStop true) | RLoop (FromStop true) _ | RUnlock (FromStop true) | Destroy => 1
  | _ => 0
  end.
Definition wn (p : pc) : nat := Nat.b2n (in_call p) - wd p.      (* other calls *)
Definition wmk (p : pc) : nat := match p with EMake => 1 | _ => 0 end.
Definition wes (p : pc) : nat := match p with EStart _ | SLoop _ => 1 | _ => 0 end.
Definition wss (p : pc) : nat := match p with SLoop _ => 1 | _ => 0 end.
Definition wst2 (p : pc) : nat := match p with EStart _ => 1 | _ => 0 end.
Definition wctx (p : pc) : nat :=     (* own a pointer to the shared_state *)
  match p with HLock _ | HSelf _ | HBody _ true _ | HUnlock true | PLock | PSelf | PBody | PUnlock => 1 | _ => 0 end.

Lemma sumw_le {A} (w w' : A -> nat) l : (forall x, w x <= w' x) -> sumw w l <= sumw w' l.
Proof. intro H. induction l as [|x l IH]; cbn [sumw]; [lia|]. specialize (H x). lia. Qed.
Lemma sumw_le2 {A} (w1 w2 w' : A -> nat) l : (forall x, w1 x + w2 x <= w' x) -> sumw w1 l + sumw w2 l <= sumw w' l.
Proof. intro H. induction l as [|x l IH]; cbn [sumw]; [lia|]. specialize (H x). lia. Qed.
Lemma sumw_two {A} (w : A -> nat) l : forall t t' p q, nth_error l t = Some p -> nth_error l t' = Some q -> t <> t' -> w p + w q <= sumw w l.
Proof.
  induction l as [|x l IH]; intros [|t] [|t'] p q Hp Hq Hn; cbn [nth_error sumw] in *; try discriminate; try congruence.
  - injection Hp as ->. apply (sumw_ge w) in Hq. lia.
  - injection Hq as ->. apply (sumw_ge w) in Hp. lia.
  - specialize (IH t t' p q Hp Hq ltac:(congruence)). lia.
Qed.

Section Inv.
Context (explicit : bool).
Notation nmade r s := (sumw (is_made r) (trace s)).
Notation nstart r s := (sumw (is_started r) (trace s)).
Notation nstop r s := (sumw (is_stopped r) (trace s)).

Definition data (s : state) (p : pc) : Prop :=
  match p with
  | EStart r => S r = nrd s /\ explicit = false /\ forall r', nstart r' s = Nat.b2n (r' <? r)
  | SLoop i => i <= nrd s /\ forall r', nstart r' s = Nat.b2n (r' <? i)
  | RLoop _ i => i <= nrd s /\ forall r', nstop r' s = Nat.b2n (r' <? i)
  | HLock r | HSelf r | HBody r _ _ => r < nrd s /\ 0 < nstart r s
  | _ => True
  end.
Definition pend_ok (s : state) (h : handler) : Prop := match h with Bound r => r < nrd s /\ 0 < nstart r s | Posted => True end.

Record inv (s : state) : Prop := {
  i_q : sumw wq (pcs s) = Nat.b2n (qm s);
  i_r : sumw wr (pcs s) = Nat.b2n (rm s);
  i_o : sumw wo (pcs s) = match once s with Some false => 1 | _ => 0 end;
  i_refs : refs s = (if alive s then S (nrd s) else 0) + length (pend s) + sumw wctx (pcs s);
  i_self : self s = negb (stopped s);
  i_f : sumw wf (pcs s) + Nat.b2n (stop_readers s) = Nat.b2n (stopped s);
  i_b : 0 < sumw wb (pcs s) -> stopped s = false;
  i_u : 0 < sumw wu (pcs s) -> stop_readers s = true;
  i_j : 0 < sumw wdn (pcs s) \/ once s = Some true -> stop_readers s = true /\ sumw wh (pcs s) = 0;
  i_tr : 0 < sumw wtr (pcs s) -> once s = Some true;
  i_l : stopped s = true -> live s = 0 \/ 0 < sumw wfl (pcs s);
  i_c : dying s = true -> sumw wn (pcs s) = 0;
  i_d : sumw wd (pcs s) = Nat.b2n (dying s && alive s);
  i_a : alive s = false -> dying s = true /\ once s = Some true;
  i_mk : 0 < sumw wmk (pcs s) -> stop_readers s = false /\ explicit && started s = false;
  i_es : 0 < sumw wst2 (pcs s) -> stop_readers s = false;
  i_ss : 0 < sumw wss (pcs s) -> started s = false;
  i_im : explicit = false -> started s = true;
  i_data : forall t p, nth_error (pcs s) t = Some p -> data s p;
  i_pend : Forall (pend_ok s) (pend s);
  i_nm : forall r, nmade r s = Nat.b2n (r <? nrd s);
  i_ns : sumw wes (pcs s) = 0 -> forall r, nstart r s = Nat.b2n (started s && (r <? nrd s));
  i_np : sumw wrl (pcs s) = 0 -> forall r, nstop r s = Nat.b2n (stop_readers s && (r <? nrd s));
  i_ret : 0 < sumw is_ret (trace s) -> once s = Some true;
  i_rtd : 0 < sumw wde (pcs s) -> 0 < sumw is_ret (trace s);
  i_gone : 0 < sumw is_gone (trace s) -> alive s = false;
  i_ord : ordered explicit (trace s)
}.

Lemma inv_init n : inv (init explicit n).
Proof.
  split; cbn [init pcs qm rm once self stopped stop_readers started nrd live pend alive dying refs trace]; rewrite ?sumw_repeat; cbn; try lia; try discriminate; auto.
  - intros [H|H]; [lia|discriminate].
  - intros t p H. apply nth_error_In in H. apply repeat_spec in H. subst p. exact I.
  - intros a e b E. destruct a; discriminate.
Qed.

Lemma wq_split l : sumw wq l = sumw wh l + sumw wx l.
Proof.
  induction l as [|p l IH]; cbn [sumw]; [reflexivity|]. rewrite IH. assert (wq p = wh p + wx p); [|lia].
  destruct p; try reflexivity. destruct ctx; reflexivity.
Qed.
Lemma wh_split l : sumw wf l + sumw wb l <= sumw wh l.
Proof. apply sumw_le2. intros []; cbn [wf wb wh]; lia. Qed.
Lemma wf_split l : sumw wfl l + sumw wrl l <= sumw wf l.
Proof. apply sumw_le2. intros []; cbn [wf wfl wrl]; lia. Qed.
Lemma wr_split l : sumw wmk l + sumw wes l + sumw wrl l <= sumw wr l.
Proof.
  assert (H : forall p, wmk p + wes p + wrl p <= wr p) by (intros []; cbn [wmk wes wrl wr]; lia).
  induction l as [|p l IH]; cbn [sumw]; [lia|]. specialize (H p). lia.
Qed.
Lemma wes_split l : sumw wes l = sumw wst2 l + sumw wss l.
Proof. induction l as [|p l IH]; cbn [sumw]; [reflexivity|]. rewrite IH. assert (wes p = wst2 p + wss p) by (destruct p; reflexivity). lia. Qed.
Lemma data_upd s s' t p : pcs s' = upd (pcs s) t p -> data s' p -> (forall t' q, t' <> t -> nth_error (pcs s) t' = Some q -> data s' q) ->
  forall t' q, nth_error (pcs s') t' = Some q -> data s' q.
Proof.
  intros E Hp Ho t' q Hq. rewrite E, nth_upd in Hq. destruct (Nat.eqb_spec t' t) as [->|Hn]; [|now apply (Ho t')].
  destruct (t <? length (pcs s)); [|discriminate]. now injection Hq as <-.
Qed.

(** What the events do to the counts *)
Lemma nm_snoc r tr e : sumw (is_made r) (tr ++ [e]) = sumw (is_made r) tr + is_made r e.
Proof. rewrite sumw_app. cbn [sumw]. lia. Qed.
Lemma ns_snoc r tr e : sumw (is_started r) (tr ++ [e]) = sumw (is_started r) tr + is_started r e.
Proof. rewrite sumw_app. cbn [sumw]. lia. Qed.
Lemma np_snoc r tr e : sumw (is_stopped r) (tr ++ [e]) = sumw (is_stopped r) tr + is_stopped r e.
Proof. rewrite sumw_app. cbn [sumw]. lia. Qed.
Lemma nr_snoc tr e : sumw is_ret (tr ++ [e]) = sumw is_ret tr + is_ret e.
Proof. rewrite sumw_app. cbn [sumw]. lia. Qed.
Lemma ng_snoc tr e : sumw is_gone (tr ++ [e]) = sumw is_gone tr + is_gone e.
Proof. rewrite sumw_app. cbn [sumw]. lia. Qed.
Lemma b2n_step r i : Nat.b2n (r <? i) + Nat.b2n (r =? i) = Nat.b2n (r <? S i).
Proof. destruct (Nat.ltb_spec r i), (Nat.eqb_spec r i), (Nat.ltb_spec r (S i)); cbn; lia. Qed.
End Inv.

Section Step.
Context (explicit : bool).
Notation inv := (inv explicit).
Notation data := (data explicit).

(** Tactics: the fields of the new invariant from those of the old one *)
Ltac proj := unfold goto, set_qm, set_rm, set_once, emit, set_live, submit, unpend in *; cbn [pcs qm rm once self stopped stop_readers started nrd live pend alive dying refs trace] in *.
Ltac simple := first [assumption | lia | (intro; lia) | (intros; congruence)].

Definition same_data (s s' : state) : Prop := nrd s' = nrd s /\ (forall r, sumw (is_started r) (trace s') = sumw (is_started r) (trace s)) /\ (forall r, sumw (is_stopped r) (trace s') = sumw (is_stopped r) (trace s)).
Lemma data_same s s' p : same_data s s' -> data s p -> data s' p.
Proof.
  intros (H1 & H2 & H3) H. destruct p; cbn [LifeProofs.data] in *; rewrite ?H1, ?H2; auto.
  - destruct H as (Ha & Hb & Hc). repeat split; auto. intro r'. rewrite H2. apply Hc.
  - destruct H as (Ha & Hc). split; auto. intro r'. rewrite H2. apply Hc.
  - destruct H as (Ha & Hc). split; auto. intro r'. rewrite H3. apply Hc.
Qed.
Lemma pend_same s s' l : same_data s s' -> Forall (pend_ok s) l -> Forall (pend_ok s') l.
Proof. intros (H1 & H2 & _) H. eapply Forall_impl; [|exact H]. intros [r|]; cbn [pend_ok]; [|auto]. now rewrite H1, H2. Qed.
Lemma data_others s s' t p : inv s -> same_data s s' -> data s' p -> forall t' q, nth_error (upd (pcs s) t p) t' = Some q -> data s' q.
Proof.
  intros Hi Hs Hp t' q Hq. rewrite nth_upd in Hq. destruct (Nat.eqb_spec t' t) as [->|Hn].
  - destruct (t <? length (pcs s)); [|discriminate]. now injection Hq as <-.
  - apply (data_same s s' q Hs). now apply (i_data explicit s Hi t').
Qed.

(** Steps that leave the history alone *)
(** [got f], [mv w]: the field [f] of the old invariant; the change of the weight [w] *)
Ltac got Hi f := let H := fresh "G" in pose proof (f _ _ Hi) as H.
Ltac mv Ep p' w := let H := fresh "U" in pose proof (sumw_upd w _ _ _ p' Ep) as H; cbn [wq wh wx wr wo wf wfl wrl wb wu wdn wtr wde wd wmk wes wss wst2 wctx wn Nat.b2n Nat.sub in_call] in H.
Ltac part s lem := let H := fresh "P" in pose proof (lem (pcs s)) as H.
Ltac f1 Hi Ep p' f w := got Hi f; mv Ep p' w; lia.
Ltac fields Hi Ep s p' :=
  split; proj;
  [ try (f1 Hi Ep p' i_q wq)
  | try (f1 Hi Ep p' i_r wr)
  | try (f1 Hi Ep p' i_o wo)
  | try (f1 Hi Ep p' i_refs wctx)
  | try (got Hi i_self; assumption)
  | try (f1 Hi Ep p' i_f wf)
  | try (f1 Hi Ep p' i_b wb)
  | try (f1 Hi Ep p' i_u wu)
  | try (let H := fresh in intro H; let H1 := fresh in let H2 := fresh in destruct (i_j _ _ Hi) as [H1 H2]; mv Ep p' wdn; mv Ep p' wh; [ destruct H as [H|H]; [left; lia|now right] | split; [assumption|lia] ])
  | try (got Hi i_tr; mv Ep p' wtr; let H := fresh in intro H; match goal with K : _ -> once s = _ |- _ => apply K; lia end)
  | try (f1 Hi Ep p' i_l wfl)
  | try (f1 Hi Ep p' i_c wn)
  | try (f1 Hi Ep p' i_d wd)
  | try (got Hi i_a; assumption)
  | try (f1 Hi Ep p' i_mk wmk)
  | try (f1 Hi Ep p' i_es wst2)
  | try (f1 Hi Ep p' i_ss wss)
  | try (got Hi i_im; assumption)
  | try (apply (data_others _ _ _ _ Hi); [now repeat split|try exact I])
  | try (got Hi i_pend; assumption)
  | try (got Hi i_nm; assumption)
  | try (got Hi i_ns; mv Ep p' wes; let H := fresh in intro H; match goal with K : _ -> forall r, _ = _ |- _ => apply K; lia end)
  | try (got Hi i_np; mv Ep p' wrl; let H := fresh in intro H; match goal with K : _ -> forall r, _ = _ |- _ => apply K; lia end)
  | try (got Hi i_ret; assumption)
  | try (got Hi i_rtd; mv Ep p' wde; let H := fresh in intro H; match goal with K : _ -> 0 < sumw is_ret _ |- _ => apply K; lia end)
  | try (got Hi i_gone; assumption)
  | try (got Hi i_ord; assumption) ].
Ltac quiet Hi Ep := proj; match type of Ep with nth_error (pcs ?s) ?t = _ => match goal with |- context [upd (pcs s) t ?p'] => fields Hi Ep s p' end end.

Lemma alive_call s t p : inv s -> nth_error (pcs s) t = Some p -> in_call p = true -> alive s = true.
Proof.
  intros Hi Ep Hc. destruct (alive s) eqn:Ea; [reflexivity|]. destruct (i_a _ _ Hi Ea) as [Hd _]. pose proof (i_c _ _ Hi Hd) as H. pose proof (i_d _ _ Hi) as H'. rewrite Ea in H'.
  pose proof (sumw_ge wn _ _ _ Ep) as Hn. apply (sumw_ge wd) in Ep. unfold wn at 1 in Hn. rewrite Hc in Hn. cbn [Nat.b2n] in Hn. lia.
Qed.
Lemma alive_wh s t p : inv s -> nth_error (pcs s) t = Some p -> wh p = 1 -> alive s = true.
Proof.
  intros Hi Ep Hc. destruct (alive s) eqn:Ea; [reflexivity|]. destruct (i_a _ _ Hi Ea) as [_ Ho]. destruct (i_j _ _ Hi (or_intror Ho)) as [_ H]. apply (sumw_ge wh) in Ep. lia.
Qed.
Lemma q_held s t p : inv s -> nth_error (pcs s) t = Some p -> wq p = 1 -> qm s = true.
Proof. intros Hi Ep H. pose proof (i_q _ _ Hi). apply (sumw_ge wq) in Ep. lia. Qed.
Lemma r_held s t p : inv s -> nth_error (pcs s) t = Some p -> wr p = 1 -> rm s = true.
Proof. intros Hi Ep H. pose proof (i_r _ _ Hi). apply (sumw_ge wr) in Ep. lia. Qed.
Lemma refs_alive s : inv s -> alive s = true -> 0 <? refs s = true.
Proof. intros Hi Ha. pose proof (i_refs _ _ Hi) as H. rewrite Ha in H. lia. Qed.
Lemma refs_ctx s t p : inv s -> nth_error (pcs s) t = Some p -> wctx p = 1 -> 0 <? refs s = true.
Proof. intros Hi Ep Hp. pose proof (i_refs _ _ Hi) as H. apply (sumw_ge wctx) in Ep. lia. Qed.

Definition good (r : res) : Prop := match r with Fault => False | Blocked => True | Ok s => inv s end.
Ltac live_call Hi Ep := let H := fresh "Ea" in pose proof (alive_call _ _ _ Hi Ep eq_refl) as H.
Ltac live_wh Hi Ep := let H := fresh "Ea" in pose proof (alive_wh _ _ _ Hi Ep eq_refl) as H.
Lemma on_stream_ok s r : alive s = true -> on_stream s r = r.
Proof. unfold on_stream. now intros ->. Qed.
Lemma on_shared_ok s r : 0 <? refs s = true -> on_shared s r = r.
Proof. unfold on_shared. now intros ->. Qed.
Lemma on_reader_ok i s r : alive s = true -> i < nrd s -> on_reader i s r = r.
Proof. unfold on_reader. intros -> H. now rewrite (proj2 (Nat.ltb_lt _ _) H). Qed.
Ltac open := unfold run_pc, lock_r, lock_q, unlock_r, unlock_q, bind.
Ltac useEa Ea := rewrite ?(on_stream_ok _ _ Ea).
Ltac useEr Er := rewrite ?(on_shared_ok _ _ Er).

Lemma e_ok s t p : inv s -> nth_error (pcs s) t = Some p -> p = ELock \/ p = EUnlock \/ p = SLock \/ p = SUnlock -> good (run_pc explicit t p s).
Proof.
  intros Hi Ep [->|[->|[->| ->]]]; live_call Hi Ep; open; useEa Ea.
  - destruct (rm s) eqn:Er; [exact I|]. cbn [good]. quiet Hi Ep.
  - pose proof (r_held _ _ _ Hi Ep eq_refl) as Er. rewrite Er. cbn [good]. quiet Hi Ep.
  - destruct (rm s) eqn:Er; [exact I|]. cbn [good]. quiet Hi Ep.
  - pose proof (r_held _ _ _ Hi Ep eq_refl) as Er. rewrite Er. cbn [good]. quiet Hi Ep.
Qed.
Lemma f_ok s t p : inv s -> nth_error (pcs s) t = Some p -> p = FLock \/ p = FUnlock -> good (run_pc explicit t p s).
Proof.
  intros Hi Ep [->| ->]; live_call Hi Ep; pose proof (refs_alive s Hi Ea) as Er; open; useEa Ea; useEr Er.
  - destruct (qm s) eqn:Eq; [exact I|]. cbn [good]. quiet Hi Ep.
  - pose proof (q_held _ _ _ Hi Ep eq_refl) as Eq. rewrite Eq. cbn [good]. quiet Hi Ep.
Qed.
Ltac mine Ep w := let H := fresh "M" in pose proof (sumw_ge w _ _ _ Ep) as H; cbn [wq wh wx wr wo wf wfl wrl wb wu wdn wtr wde wd wmk wes wss wst2 wctx wn Nat.b2n Nat.sub in_call] in H.
(** A thread that holds queue_mutex outside stop_received etc. *)
Lemma no_wh s t p : inv s -> nth_error (pcs s) t = Some p -> wx p = 1 -> sumw wh (pcs s) = 0.
Proof. intros Hi Ep H. pose proof (i_q _ _ Hi). pose proof (wq_split (pcs s)). apply (sumw_ge wx) in Ep. lia. Qed.
Lemma stopped_done s t p : inv s -> nth_error (pcs s) t = Some p -> wx p = 1 -> stopped s = stop_readers s.
Proof. intros Hi Ep H. pose proof (no_wh s t p Hi Ep H). pose proof (i_f _ _ Hi). pose proof (wh_split (pcs s)). lia. Qed.
Lemma not_done s : inv s -> stopped s = false -> sumw wdn (pcs s) = 0 /\ once s <> Some true.
Proof.
  intros Hi Es. pose proof (i_f _ _ Hi) as Hf. split; [destruct (Nat.eq_dec (sumw wdn (pcs s)) 0) as [|Hn]; [assumption|]|intro Ho].
  - destruct (i_j _ _ Hi) as [H _]; [left; lia|]. lia.
  - destruct (i_j _ _ Hi (or_intror Ho)) as [H _]. lia.
Qed.

Lemma t_ok s t p d : inv s -> nth_error (pcs s) t = Some p -> p = TOnce d \/ p = TLock d \/ p = TTest d \/ p = TUnlock d \/ p = TDone d -> good (run_pc explicit t p s).
Proof.
  intros Hi Ep [->|[->|[->|[->| ->]]]]; live_call Hi Ep; pose proof (refs_alive s Hi Ea) as Er; open; useEa Ea; useEr Er.
  - destruct (once s) as [[|]|] eqn:Eo; [|exact I|]; cbn [good]; destruct d; quiet Hi Ep; auto.
    all: try (got Hi i_o; rewrite Eo in *; mv Ep (TLock true) wo; mv Ep (TLock false) wo; lia).
    all: try (got Hi i_ret; intro H; rewrite Eo in *; specialize (G H); discriminate).
    all: got Hi i_tr; mv Ep (TLock true) wtr; mv Ep (TLock false) wtr; intro H; rewrite Eo in G; specialize (G ltac:(lia)); discriminate.
  - destruct (qm s) eqn:Eq; [exact I|]. cbn [good]. destruct d; quiet Hi Ep.
  - pose proof (stopped_done s t _ Hi Ep eq_refl) as Hsd. destruct (stopped s) eqn:Es; cbn [good].
    + destruct d; quiet Hi Ep; now intros _.
    + destruct (not_done s Hi Es) as [Hd Ho]. destruct d; quiet Hi Ep; intros [H|H]; try contradiction; mv Ep (RFlag (FromStop true)) wdn; mv Ep (RFlag (FromStop false)) wdn; lia.
  - pose proof (q_held _ _ _ Hi Ep eq_refl) as Eq. rewrite Eq. cbn [good]. pose proof (no_wh s t _ Hi Ep eq_refl) as Hw. mine Ep wu. pose proof (i_u _ _ Hi ltac:(lia)) as Hsr.
    destruct d; quiet Hi Ep; intros _; (split; [exact Hsr|]); mv Ep (TDone true) wh; mv Ep (TDone false) wh; lia.
  - cbn [good]. mine Ep wdn. destruct (i_j _ _ Hi ltac:(left; lia)) as [Hsr Hw]. mine Ep wo. got Hi i_o.
    destruct d; quiet Hi Ep; auto.
    all: try (mv Ep (TRet true) wo; mv Ep (TRet false) wo; destruct (once s) as [[|]|]; lia).
    all: try (intro H; congruence).
    all: intros _; split; [exact Hsr|]; mv Ep (TRet true) wh; mv Ep (TRet false) wh; lia.
Qed.
(** Events that no count depends on *)
Definition dull (e : event) : Prop := match e with Ignored | Refused | Ran _ | RanPosted | Heaps | StopRet => True | _ => False end.
Lemma emit_ok s e : inv s -> dull e -> (e = StopRet -> once s = Some true) -> allowed explicit (trace s) e -> inv (emit e s).
Proof.
  intros Hi He Hr Ha. assert (Hs : same_data s (emit e s)).
  { split; [reflexivity|]. split; intro r; cbn [emit trace]; rewrite ?ns_snoc, ?np_snoc; destruct e; try destruct He; cbn [is_started is_stopped]; lia. }
  destruct Hi. destruct Hs as (Hs1 & Hs2 & Hs3). split; cbn [emit pcs qm rm once self stopped stop_readers started nrd live pend alive dying refs trace]; auto.
  - intros t p Hp. apply (data_same s); [now repeat split|]. now apply (i_data0 t).
  - apply (pend_same s); [now repeat split|assumption].
  - intro r. rewrite nm_snoc, i_nm0. clear - He. destruct e; try destruct He; cbn [is_made]; lia.
  - intros H r. specialize (i_ns0 H r). rewrite ns_snoc, i_ns0. clear - He. destruct e; try destruct He; cbn [is_started]; lia.
  - intros H r. specialize (i_np0 H r). rewrite np_snoc, i_np0. clear - He. destruct e; try destruct He; cbn [is_stopped]; lia.
  - rewrite nr_snoc. intro H. clear - H Hr i_ret0. destruct e; try (now apply Hr); apply i_ret0; cbn [is_ret] in H; clear - H; lia.
  - intro H. specialize (i_rtd0 H). rewrite nr_snoc. clear - i_rtd0. lia.
  - rewrite ng_snoc. intro H. apply i_gone0. clear - H He. destruct e; try destruct He; cbn [is_gone] in H; lia.
  - now apply ordered_snoc.
Qed.
Lemma alive_gone s : inv s -> alive s = true -> ~ In Gone (trace s).
Proof. intros Hi Ha H. apply gone_in in H. apply (i_gone _ _ Hi) in H. congruence. Qed.
Lemma no_ret s : inv s -> once s <> Some true -> ~ In StopRet (trace s).
Proof. intros Hi Ho H. apply ret_in in H. now apply (i_ret _ _ Hi) in H. Qed.

Lemma tret_ok s t d : inv s -> nth_error (pcs s) t = Some (TRet d) -> good (run_pc explicit t (TRet d) s).
Proof.
  intros Hi Ep. live_call Hi Ep. cbn [run_pc good]. mine Ep wtr. pose proof (i_tr _ _ Hi ltac:(lia)) as Ho.
  assert (Hi' : inv (emit StopRet s)) by (apply emit_ok; auto; [exact I|]; split; [now apply alive_gone|exact I]).
  assert (Ep' : nth_error (pcs (emit StopRet s)) t = Some (TRet d)) by exact Ep.
  assert (Hn : 0 < sumw is_ret (trace (emit StopRet s))) by (cbn [emit trace]; rewrite nr_snoc; cbn [is_ret]; lia).
  revert Hi' Ep' Hn. generalize (emit StopRet s). clear. intros s Hi Ep Hn. destruct d; quiet Hi Ep; auto.
Qed.
Lemma r_ok s t p k : inv s -> nth_error (pcs s) t = Some p -> p = RFlag k \/ p = RLock k \/ p = RUnlock k -> good (run_pc explicit t p s).
Proof.
  intros Hi Ep [->|[->| ->]]; live_wh Hi Ep; open; useEa Ea.
  - mine Ep wb. pose proof (i_b _ _ Hi ltac:(lia)) as Es. destruct (not_done s Hi Es) as [Hd Ho]. pose proof (i_q _ _ Hi) as Hq. pose proof (wq_split (pcs s)) as Sq. pose proof (wh_split (pcs s)) as Sh.
    replace (if stopped s then Fault else _) with (Ok (goto t (RFlush k)
        {| pcs := pcs s; qm := qm s; rm := rm s; once := once s; self := false; stopped := true; stop_readers := stop_readers s; started := started s; nrd := nrd s; live := live s;
           pend := pend s; alive := alive s; dying := dying s; refs := refs s; trace := trace s |})) by now rewrite Es.
    destruct k as [[|]|]; cbn [good]; quiet Hi Ep; auto.
  - destruct (rm s) eqn:Er; [exact I|]. pose proof (i_r _ _ Hi) as Hr. pose proof (wr_split (pcs s)) as Sr. mine Ep wf. pose proof (i_f _ _ Hi) as Hf.
    pose proof (i_np _ _ Hi ltac:(lia)) as Hnp.
    assert (Hd : forall k, data (goto t (RLoop k 0) (set_rm true s)) (RLoop k 0)).
    { intro k'. cbn [LifeProofs.data]. proj. split; [lia|]. intro r'. rewrite Hnp. replace (stop_readers s) with false by lia. reflexivity. }
    destruct k as [[|]|]; cbn [good]; quiet Hi Ep; apply Hd.
  - pose proof (r_held _ _ _ Hi Ep eq_refl) as Er. rewrite Er. mine Ep wu. pose proof (i_u _ _ Hi ltac:(lia)) as Hsr. destruct k as [[|]|]; cbn [good]; quiet Hi Ep.
Qed.
Lemma hlock_ok s t r : inv s -> nth_error (pcs s) t = Some (HLock r) -> good (run_pc explicit t (HLock r) s).
Proof.
  intros Hi Ep. pose proof (refs_ctx _ _ _ Hi Ep eq_refl) as Er. open. useEr Er. destruct (qm s) eqn:Eq; [exact I|]. pose proof (i_data _ _ Hi _ _ Ep) as Hd. cbn [good]. quiet Hi Ep. exact Hd.
Qed.
Lemma plock_ok s t : inv s -> nth_error (pcs s) t = Some PLock -> good (run_pc explicit t PLock s).
Proof.
  intros Hi Ep. pose proof (refs_ctx _ _ _ Hi Ep eq_refl) as Er. open. useEr Er. destruct (qm s) eqn:Eq; [exact I|]. cbn [good]. quiet Hi Ep.
Qed.
Lemma not_alive_done s : inv s -> stopped s = false -> alive s = true.
Proof. intros Hi Es. destruct (alive s) eqn:Ea; [reflexivity|]. destruct (i_a _ _ Hi Ea) as [_ Ho]. now destruct (not_done s Hi Es) as [_ H]. Qed.
Lemma hself_ok s t r : inv s -> nth_error (pcs s) t = Some (HSelf r) -> good (run_pc explicit t (HSelf r) s).
Proof.
  intros Hi Ep. pose proof (refs_ctx _ _ _ Hi Ep eq_refl) as Er. open. useEr Er. pose proof (i_self _ _ Hi) as Hs. pose proof (i_data _ _ Hi _ _ Ep) as Hd. destruct (self s) eqn:Es.
  - assert (Est : stopped s = false) by lia. pose proof (not_alive_done s Hi Est) as Ea. useEa Ea. rewrite Est. destruct (not_done s Hi Est) as [Hdn Ho]. cbn [good]. quiet Hi Ep; [|exact Hd].
    intros [H|H]; [mv Ep (HBody r true false) wdn; lia|contradiction].
  - cbn [good]. quiet Hi Ep.
Qed.
Lemma pself_ok s t : inv s -> nth_error (pcs s) t = Some PSelf -> good (run_pc explicit t PSelf s).
Proof.
  intros Hi Ep. pose proof (refs_ctx _ _ _ Hi Ep eq_refl) as Er. open. useEr Er. pose proof (i_self _ _ Hi) as Hs. destruct (self s) eqn:Es.
  - assert (Est : stopped s = false) by lia. destruct (not_done s Hi Est) as [Hdn Ho]. cbn [good]. quiet Hi Ep. intros [H|H]; [mv Ep PBody wdn; lia|contradiction].
  - cbn [good]. quiet Hi Ep.
Qed.
Lemma hend_ok s t p st : inv s -> nth_error (pcs s) t = Some p -> p = HEnd st \/ p = HStats -> good (run_pc explicit t p s).
Proof. intros Hi Ep [->| ->]; live_wh Hi Ep; open; useEa Ea; [destruct st|]; cbn [good]; quiet Hi Ep. Qed.

Definition drop_refs (n : nat) (s : state) : state :=
  {| pcs := pcs s; qm := qm s; rm := rm s; once := once s; self := self s; stopped := stopped s; stop_readers := stop_readers s; started := started s; nrd := nrd s; live := live s;
     pend := pend s; alive := alive s; dying := dying s; refs := refs s - n; trace := trace s |}.
Lemma release_ok n s : n <= refs s -> (refs s = n -> qm s = false) -> release n s = Ok (drop_refs n s).
Proof.
  intros H Hq. unfold release. destruct (Nat.ltb_spec (refs s) n); [lia|]. replace ((refs s =? n) && qm s) with false; [reflexivity|]. destruct (Nat.eqb_spec (refs s) n) as [E|E]; [now rewrite (Hq E)|reflexivity].
Qed.
Lemma hbody_ok s t r ctx st : inv s -> nth_error (pcs s) t = Some (HBody r ctx st) -> good (run_pc explicit t (HBody r ctx st) s).
Proof.
  intros Hi Ep. live_wh Hi Ep. pose proof (i_refs _ _ Hi) as Hrf. rewrite Ea in Hrf. open. destruct ctx.
  - mine Ep wctx. rewrite release_ok by lia. unfold drop_refs. cbn [good]. destruct st; quiet Hi Ep.
  - cbn [good]. destruct st; quiet Hi Ep.
Qed.
Lemma hunlock_ok s t ctx : inv s -> nth_error (pcs s) t = Some (HUnlock ctx) -> good (run_pc explicit t (HUnlock ctx) s).
Proof.
  intros Hi Ep. pose proof (q_held _ _ _ Hi Ep eq_refl) as Eq. open. destruct ctx.
  - pose proof (refs_ctx _ _ _ Hi Ep eq_refl) as Er. useEr Er. rewrite Eq. rewrite release_ok; [|cbn [set_qm refs]; lia|reflexivity]. unfold drop_refs. cbn [good]. quiet Hi Ep.
  - live_wh Hi Ep. pose proof (refs_alive s Hi Ea) as Er. useEr Er. rewrite Eq. cbn [good]. quiet Hi Ep.
Qed.
Lemma punlock_ok s t : inv s -> nth_error (pcs s) t = Some PUnlock -> good (run_pc explicit t PUnlock s).
Proof.
  intros Hi Ep. pose proof (q_held _ _ _ Hi Ep eq_refl) as Eq. open. pose proof (refs_ctx _ _ _ Hi Ep eq_refl) as Er. useEr Er. rewrite Eq.
  rewrite release_ok; [|cbn [set_qm refs]; lia|reflexivity]. unfold drop_refs. cbn [good]. quiet Hi Ep.
Qed.
Lemma destroy_ok s t : inv s -> nth_error (pcs s) t = Some Destroy -> good (run_pc explicit t Destroy s).
Proof.
  intros Hi Ep. live_call Hi Ep. open. useEa Ea. pose proof (i_refs _ _ Hi) as Hrf. rewrite Ea in Hrf. mine Ep wd. pose proof (i_d _ _ Hi) as Hd. rewrite Ea in Hd.
  assert (Hdy : dying s = true) by lia. pose proof (i_c _ _ Hi Hdy) as Hn. mine Ep wde. mine Ep wtr. pose proof (i_tr _ _ Hi ltac:(lia)) as Ho. destruct (i_j _ _ Hi (or_intror Ho)) as [Hsr Hw].
  assert (H1 : sumw wr (pcs s) + sumw wde (pcs s) <= sumw wn (pcs s) + sumw wd (pcs s) + sumw wh (pcs s)).
  { clear. induction (pcs s) as [|p l IH]; cbn [sumw]; [lia|]. assert (wr p + wde p <= wn p + wd p + wh p); [|lia]. destruct p; cbn [wr wde wn wd wh in_call Nat.b2n Nat.sub]; try lia; destruct k as [[|]|]; cbn; lia. }
  assert (H2 : sumw wx (pcs s) + sumw wde (pcs s) <= sumw wn (pcs s) + sumw wd (pcs s) + sumw wctx (pcs s)).
  { clear. induction (pcs s) as [|p l IH]; cbn [sumw]; [lia|]. assert (wx p + wde p <= wn p + wd p + wctx p); [|lia].
    destruct p; cbn [wx wde wn wd wctx in_call Nat.b2n Nat.sub]; try lia; try (destruct d; cbn; lia); destruct ctx; cbn; lia. }
  pose proof (i_r _ _ Hi) as Hr. pose proof (i_q _ _ Hi) as Hq. pose proof (wq_split (pcs s)) as Sq. replace (rm s) with false by lia.
  rewrite release_ok by lia. unfold drop_refs. cbn [good]. pose proof (i_rtd _ _ Hi ltac:(lia)) as Hret.
  assert (Hal : allowed explicit (trace s) Gone) by (split; [now apply alive_gone|now apply ret_in]).
  assert (Hs : forall s', nrd s' = nrd s -> trace s' = trace s ++ [Gone] -> same_data s s').
  { intros s' E1 E2. split; [exact E1|]. rewrite E2. split; intro r; rewrite ?ns_snoc, ?np_snoc; cbn [is_started is_stopped]; lia. }
  quiet Hi Ep; auto.
  - apply (data_others _ _ _ _ Hi); [now apply Hs|exact I].
  - apply (pend_same s); [now apply Hs|apply (i_pend _ _ Hi)].
  - intro r. rewrite nm_snoc, (i_nm _ _ Hi). cbn [is_made]. lia.
  - intros H r. rewrite ns_snoc. cbn [is_started]. rewrite Nat.add_0_r. mv Ep Idle wes. apply (i_ns _ _ Hi). lia.
  - intros H r. rewrite np_snoc. cbn [is_stopped]. rewrite Nat.add_0_r. mv Ep Idle wrl. apply (i_np _ _ Hi). lia.
  - intros _. rewrite nr_snoc. lia.
  - apply ordered_snoc; [apply (i_ord _ _ Hi)|exact Hal].
Qed.

Lemma no_stopped s : inv s -> sumw wrl (pcs s) = 0 -> stop_readers s = false -> forall r, ~ In (Stopped r) (trace s).
Proof. intros Hi Hw Hs r H. apply stopped_in in H. rewrite (i_np _ _ Hi Hw r), Hs in H. cbn in H. lia. Qed.
Lemma not_stopped_wrl s : inv s -> stopped s = false -> sumw wrl (pcs s) = 0 /\ stop_readers s = false.
Proof. intros Hi Hs. pose proof (i_f _ _ Hi). pose proof (wf_split (pcs s)). lia. Qed.
Lemma set_live_ok s n : inv s -> (stopped s = true -> n = 0) -> inv (set_live n s).
Proof. intros Hi H. pose proof Hi as Hi0. destruct Hi0. split; proj; auto. Qed.
Lemma flush_inv s : inv s -> alive s = true -> (live s <> 0 -> once s <> Some true /\ sumw wrl (pcs s) = 0 /\ stop_readers s = false) -> inv (flush s).
Proof.
  intros Hi Ha H. unfold flush. destruct (Nat.eqb_spec (live s) 0) as [E|E]; [exact Hi|]. destruct (H E) as (Ho & Hw & Hs).
  apply set_live_ok; [|auto]. apply emit_ok; auto; [exact I|discriminate|]. split; [now apply alive_gone|]. split; [now apply no_stopped|now apply no_ret].
Qed.
Lemma flush_pcs s : pcs (flush s) = pcs s /\ live (flush s) = 0.
Proof. unfold flush. destruct (Nat.eqb_spec (live s) 0) as [E|E]; auto. Qed.
Lemma flush_step s t p p' : inv (flush s) -> nth_error (pcs s) t = Some p -> (p = FRun /\ p' = FUnlock) \/ (exists k, p = RFlush k /\ p' = RLock k) -> inv (goto t p' (flush s)).
Proof.
  intros Hi Ep Hp. destruct (flush_pcs s) as [E El]. rewrite <- E in Ep. clear E. revert Hi Ep El. generalize (flush s). clear s. intros s Hi Ep El.
  destruct Hp as [[-> ->]|(k & -> & ->)]; [quiet Hi Ep|]. destruct k as [[|]|]; quiet Hi Ep; auto.
Qed.
Lemma frun_ok s t : inv s -> nth_error (pcs s) t = Some FRun -> good (run_pc explicit t FRun s).
Proof.
  intros Hi Ep. live_call Hi Ep. open. useEa Ea. cbn [good]. apply (flush_step s t FRun); auto. apply flush_inv; auto. intro Hl.
  pose proof (no_wh s t _ Hi Ep eq_refl) as Hw. pose proof (wh_split (pcs s)). pose proof (wf_split (pcs s)). pose proof (i_f _ _ Hi).
  assert (Es : stopped s = false) by (destruct (stopped s) eqn:Es; [|reflexivity]; destruct (i_l _ _ Hi Es); [contradiction|lia]).
  destruct (not_done s Hi Es). repeat split; auto; lia.
Qed.
Lemma rflush_ok s t k : inv s -> nth_error (pcs s) t = Some (RFlush k) -> good (run_pc explicit t (RFlush k) s).
Proof.
  intros Hi Ep. live_wh Hi Ep. open. useEa Ea. cbn [good]. apply (flush_step s t (RFlush k)); eauto. apply flush_inv; auto. intros _. mine Ep wfl. mine Ep wh.
  pose proof (wh_split (pcs s)). pose proof (wf_split (pcs s)). pose proof (i_f _ _ Hi). split; [|lia]. intro Ho. destruct (i_j _ _ Hi (or_intror Ho)). lia.
Qed.
Lemma rloop_ok s t k i : inv s -> nth_error (pcs s) t = Some (RLoop k i) -> good (run_pc explicit t (RLoop k i) s).
Proof.
  intros Hi Ep. live_wh Hi Ep. pose proof (i_data _ _ Hi _ _ Ep) as Hd. cbn [LifeProofs.data] in Hd. destruct Hd as [Hle Hcnt]. mine Ep wr. mine Ep wh. mine Ep wrl. mine Ep wf.
  pose proof (i_r _ _ Hi) as Hr. pose proof (i_f _ _ Hi) as Hf. pose proof (wr_split (pcs s)) as Sr. pose proof (wf_split (pcs s)) as Sf.
  assert (Ho : once s <> Some true) by (intro Ho; destruct (i_j _ _ Hi (or_intror Ho)); lia).
  open. destruct (Nat.ltb_spec i (nrd s)) as [Hlt|Hge].
  - rewrite (on_reader_ok i s _ Ea Hlt). cbn [good].
    assert (Hal : allowed explicit (trace s) (Stopped i)).
    { split; [now apply alive_gone|]. split; [apply made_in; rewrite (i_nm _ _ Hi); destruct (Nat.ltb_spec i (nrd s)); cbn; lia|]. split; [|now apply no_ret].
      intro H. apply stopped_in in H. rewrite Hcnt, Nat.ltb_irrefl in H. cbn in H. lia. }
    assert (Hw : sumw wrl (upd (pcs s) t (RLoop k (S i))) = sumw wrl (pcs s)) by (pose proof (sumw_upd wrl _ _ _ (RLoop k (S i)) Ep) as U; cbn [wrl] in U; lia).
    assert (Hdata : forall s', nrd s' = nrd s -> trace s' = trace s ++ [Stopped i] -> forall t0 p0, nth_error (upd (pcs s) t (RLoop k (S i))) t0 = Some p0 -> data s' p0).
    { intros s' E1 E2 t0 p0 Hp0. rewrite nth_upd in Hp0. destruct (Nat.eqb_spec t0 t) as [->|Hn].
      - destruct (t <? length (pcs s)); [|discriminate]. injection Hp0 as <-. cbn [LifeProofs.data]. rewrite E1, E2. split; [lia|]. intro r'. rewrite np_snoc, Hcnt. cbn [is_stopped]. apply b2n_step.
      - pose proof (i_data _ _ Hi _ _ Hp0) as Hd. pose proof (sumw_two wrl _ _ _ _ _ Ep Hp0 ltac:(congruence)) as H2. cbn [wrl] in H2.
        destruct p0; cbn [LifeProofs.data wrl] in *; rewrite ?E1, ?E2, ?ns_snoc; cbn [is_started]; rewrite ?Nat.add_0_r; auto; try lia.
        + destruct Hd as (Hx & Hy & Hz). repeat split; auto. intro r'. rewrite ns_snoc. cbn [is_started]. rewrite Nat.add_0_r. apply Hz.
        + destruct Hd as (Hx & Hz). repeat split; auto. intro r'. rewrite ns_snoc. cbn [is_started]. rewrite Nat.add_0_r. apply Hz. }
    assert (Hpend : forall s', nrd s' = nrd s -> trace s' = trace s ++ [Stopped i] -> Forall (pend_ok s') (pend s)).
    { intros s' E1 E2. eapply Forall_impl; [|apply (i_pend _ _ Hi)]. intros [r|]; cbn [pend_ok]; [|auto]. rewrite E1, E2, ns_snoc. cbn [is_started]. now rewrite Nat.add_0_r. }
    destruct k as [[|]|]; quiet Hi Ep; auto; proj.
    all: try (rewrite Hw; intro; lia).
    all: try (intro r; rewrite nm_snoc; cbn [is_made]; rewrite Nat.add_0_r; apply (i_nm _ _ Hi)).
    all: try (rewrite nr_snoc; cbn [is_ret]; rewrite Nat.add_0_r; apply (i_ret _ _ Hi)).
    all: try (rewrite ng_snoc; cbn [is_gone]; rewrite Nat.add_0_r; apply (i_gone _ _ Hi)).
    all: try (apply ordered_snoc; [apply (i_ord _ _ Hi)|exact Hal]).
    all: try (intros t0 p0; apply Hdata; reflexivity).
    all: try (intro; lia).
    all: try (intro H; rewrite nr_snoc; cbn [is_ret]; pose proof (i_rtd _ _ Hi) as G; mv Ep (RLoop (FromStop true) (S i)) wde; mv Ep (RLoop (FromStop false) (S i)) wde; mv Ep (RLoop FromHandler (S i)) wde; specialize (G ltac:(lia)); lia).
    all: intros H r; rewrite ns_snoc; cbn [is_started]; rewrite Nat.add_0_r; apply (i_ns _ _ Hi);
      mv Ep (RLoop (FromStop true) (S i)) wes; mv Ep (RLoop (FromStop false) (S i)) wes; mv Ep (RLoop FromHandler (S i)) wes; lia.
  - useEa Ea. assert (i = nrd s) by lia. subst i. cbn [good].
    assert (Hdn : sumw wdn (pcs s) = 0) by (destruct (Nat.eq_dec (sumw wdn (pcs s)) 0); [assumption|]; destruct (i_j _ _ Hi) as [_ H0]; [left; lia|lia]).
    pose proof (wes_split (pcs s)) as Se.
    destruct k as [[|]|]; quiet Hi Ep; auto; proj.
    all: try (intros [H|H]; [|contradiction]; mv Ep (RUnlock (FromStop true)) wdn; mv Ep (RUnlock (FromStop false)) wdn; mv Ep (RUnlock FromHandler) wdn; lia).
    all: mv Ep (RUnlock (FromStop true)) wst2; mv Ep (RUnlock (FromStop false)) wst2; mv Ep (RUnlock FromHandler) wst2; lia.
Qed.

Lemma echeck_ok s t : inv s -> nth_error (pcs s) t = Some ECheck -> good (run_pc explicit t ECheck s).
Proof.
  intros Hi Ep. live_call Hi Ep. open. useEa Ea.
  assert (Hem : forall e, e = Refused \/ e = Ignored -> inv (goto t EUnlock (emit e s))).
  { intros e He. assert (Hi' : inv (emit e s)) by (apply emit_ok; auto; [destruct He as [-> | ->]; exact I|destruct He as [-> | ->]; discriminate|]; split; [now apply alive_gone|destruct He as [-> | ->]; exact I]).
    assert (Ep' : nth_error (pcs (emit e s)) t = Some ECheck) by exact Ep. revert Hi' Ep'. generalize (emit e s). clear. intros s Hi Ep. quiet Hi Ep. }
  destruct (explicit && started s) eqn:E1; [cbn [good]; auto|]. destruct (stop_readers s) eqn:E2; [cbn [good]; auto|]. cbn [good]. quiet Hi Ep.
Qed.
Lemma stest_ok s t : inv s -> nth_error (pcs s) t = Some STest -> good (run_pc explicit t STest s).
Proof.
  intros Hi Ep. live_call Hi Ep. open. useEa Ea. mine Ep wr. pose proof (i_r _ _ Hi) as Hr. pose proof (wr_split (pcs s)) as Sr.
  assert (Hw : sumw wes (pcs s) = 0).
  { destruct (Nat.eq_dec (sumw wes (pcs s)) 0) as [|Hn]; [assumption|]. destruct (sumw_pos wes (pcs s) ltac:(lia)) as (t' & q & Hq & Hw).
    destruct (Nat.eq_dec t t') as [->|Ht]; [rewrite Ep in Hq; injection Hq as <-; cbn in Hw; lia|]. pose proof (sumw_two wr _ _ _ _ _ Ep Hq Ht) as H2. destruct q; cbn [wes wr] in *; lia. }
  destruct (started s) eqn:E1; cbn [good]; quiet Hi Ep. cbn [LifeProofs.data nrd trace]. split; [lia|]. intro r'. rewrite (i_ns _ _ Hi Hw), E1. reflexivity.
Qed.
Lemma pbody_ok s t : inv s -> nth_error (pcs s) t = Some PBody -> good (run_pc explicit t PBody s).
Proof.
  intros Hi Ep. live_wh Hi Ep. open. useEa Ea. cbn [good]. mine Ep wb. pose proof (i_b _ _ Hi ltac:(lia)) as Es. destruct (not_done s Hi Es) as [_ Ho]. destruct (not_stopped_wrl s Hi Es) as [Hw Hs].
  assert (Hi' : inv (emit RanPosted s)).
  { apply emit_ok; auto; [exact I|discriminate|]. split; [now apply alive_gone|]. split; [now apply no_stopped|now apply no_ret]. }
  assert (Ep' : nth_error (pcs (emit RanPosted s)) t = Some PBody) by exact Ep. revert Hi' Ep'. generalize (emit RanPosted s). clear. intros s Hi Ep. quiet Hi Ep.
Qed.
(** A reader is started by a thread that holds reader_mutex. *)
Lemma start_data s t p p' i s' : inv s -> nth_error (pcs s) t = Some p -> wes p = 1 -> nrd s' = nrd s -> trace s' = trace s ++ [Started i] -> data s' p' ->
  forall t0 p0, nth_error (upd (pcs s) t p') t0 = Some p0 -> data s' p0.
Proof.
  intros Hi Ep Hp E1 E2 Hd t0 p0 Hp0. rewrite nth_upd in Hp0. destruct (Nat.eqb_spec t0 t) as [->|Hn].
  - destruct (t <? length (pcs s)); [|discriminate]. now injection Hp0 as <-.
  - pose proof (i_data _ _ Hi _ _ Hp0) as Hd0. pose proof (sumw_two wes _ _ _ _ _ Ep Hp0 ltac:(congruence)) as H2. pose proof (wr_split (pcs s)). pose proof (i_r _ _ Hi).
    destruct p0; cbn [LifeProofs.data wes] in *; rewrite ?E1, ?E2, ?ns_snoc; auto; try lia.
    destruct Hd0 as (Hx & Hz). repeat split; auto. intro r'. rewrite np_snoc. cbn [is_stopped]. rewrite Nat.add_0_r. apply Hz.
Qed.
Lemma start_pend s i s' : inv s -> i < nrd s -> nrd s' = nrd s -> trace s' = trace s ++ [Started i] -> Forall (pend_ok s') (pend s ++ [Bound i]).
Proof.
  intros Hi Hlt E1 E2. apply Forall_app. split.
  - eapply Forall_impl; [|apply (i_pend _ _ Hi)]. intros [r|]; cbn [pend_ok]; [|auto]. rewrite E1, E2, ns_snoc. lia.
  - constructor; [|constructor]. cbn [pend_ok]. rewrite E1, E2, ns_snoc. cbn [is_started]. rewrite Nat.eqb_refl. cbn. lia.
Qed.
Lemma estart_ok s t r : inv s -> nth_error (pcs s) t = Some (EStart r) -> good (run_pc explicit t (EStart r) s).
Proof.
  intros Hi Ep. live_call Hi Ep. pose proof (i_data _ _ Hi _ _ Ep) as Hd. cbn [LifeProofs.data] in Hd. destruct Hd as (Hr & Hex & Hcnt). open. rewrite (on_reader_ok r s _ Ea) by lia. cbn [good].
  mine Ep wst2. pose proof (i_es _ _ Hi ltac:(lia)) as Hsr. mine Ep wes. pose proof (wr_split (pcs s)) as Sr. pose proof (i_r _ _ Hi) as Hrr.
  assert (Ho : once s <> Some true) by (intro Ho; destruct (i_j _ _ Hi (or_intror Ho)); congruence).
  assert (Hal : allowed explicit (trace s) (Started r)).
  { split; [now apply alive_gone|]. split; [apply made_in; rewrite (i_nm _ _ Hi); destruct (Nat.ltb_spec r (nrd s)); cbn; lia|]. split.
    - intro H. apply started_in in H. rewrite Hcnt, Nat.ltb_irrefl in H. cbn in H. lia.
    - intros _. split; [apply no_stopped; auto; lia|now apply no_ret]. }
  pose proof (i_im _ _ Hi Hex) as Hst. quiet Hi Ep; proj.
  - rewrite app_length. cbn [length]. got Hi i_refs. mv Ep EUnlock wctx. lia.
  - apply (start_data s t (EStart r) EUnlock r); auto. exact I.
  - apply (start_pend s r); auto. lia.
  - intro r0. rewrite nm_snoc. cbn [is_made]. rewrite Nat.add_0_r. apply (i_nm _ _ Hi).
  - intros _ r0. rewrite ns_snoc, Hcnt, Hst, <- Hr. cbn [is_started andb]. apply b2n_step.
  - intros H r0. rewrite np_snoc. cbn [is_stopped]. rewrite Nat.add_0_r. apply (i_np _ _ Hi). lia.
  - rewrite nr_snoc. cbn [is_ret]. rewrite Nat.add_0_r. apply (i_ret _ _ Hi).
  - intro H. rewrite nr_snoc. mv Ep EUnlock wde. pose proof (i_rtd _ _ Hi ltac:(lia)). lia.
  - rewrite ng_snoc. cbn [is_gone]. rewrite Nat.add_0_r. apply (i_gone _ _ Hi).
  - apply ordered_snoc; [apply (i_ord _ _ Hi)|exact Hal].
Qed.
Lemma sloop_ok s t i : inv s -> nth_error (pcs s) t = Some (SLoop i) -> good (run_pc explicit t (SLoop i) s).
Proof.
  intros Hi Ep. live_call Hi Ep. pose proof (i_data _ _ Hi _ _ Ep) as Hd. cbn [LifeProofs.data] in Hd. destruct Hd as (Hle & Hcnt). open.
  mine Ep wss. pose proof (i_ss _ _ Hi ltac:(lia)) as Hst. assert (Hex : explicit = true) by (destruct explicit eqn:E; [reflexivity|]; pose proof (i_im _ _ Hi eq_refl); congruence).
  mine Ep wes. pose proof (wr_split (pcs s)) as Sr. pose proof (i_r _ _ Hi) as Hrr.
  destruct (Nat.ltb_spec i (nrd s)) as [Hlt|Hge].
  - rewrite (on_reader_ok i s _ Ea Hlt). cbn [good].
    assert (Hal : allowed explicit (trace s) (Started i)).
    { split; [now apply alive_gone|]. split; [apply made_in; rewrite (i_nm _ _ Hi); destruct (Nat.ltb_spec i (nrd s)); cbn; lia|]. split; [|congruence].
      intro H. apply started_in in H. rewrite Hcnt, Nat.ltb_irrefl in H. cbn in H. lia. }
    quiet Hi Ep; proj.
    + rewrite app_length. cbn [length]. got Hi i_refs. mv Ep (SLoop (S i)) wctx. lia.
    + apply (start_data s t (SLoop i) (SLoop (S i)) i); auto. cbn [LifeProofs.data nrd trace]. split; [lia|]. intro r'. rewrite ns_snoc, Hcnt. cbn [is_started]. apply b2n_step.
    + apply (start_pend s i); auto.
    + intro r0. rewrite nm_snoc. cbn [is_made]. rewrite Nat.add_0_r. apply (i_nm _ _ Hi).
    + intro H. mv Ep (SLoop (S i)) wes. lia.
    + intros H r0. rewrite np_snoc. cbn [is_stopped]. rewrite Nat.add_0_r. apply (i_np _ _ Hi). lia.
    + rewrite nr_snoc. cbn [is_ret]. rewrite Nat.add_0_r. apply (i_ret _ _ Hi).
    + intro H. rewrite nr_snoc. mv Ep (SLoop (S i)) wde. pose proof (i_rtd _ _ Hi ltac:(lia)). lia.
    + rewrite ng_snoc. cbn [is_gone]. rewrite Nat.add_0_r. apply (i_gone _ _ Hi).
    + apply ordered_snoc; [apply (i_ord _ _ Hi)|exact Hal].
  - useEa Ea. assert (i = nrd s) by lia. subst i. cbn [good]. pose proof (wes_split (pcs s)) as Se. quiet Hi Ep; proj; auto.
Qed.
Lemma emake_ok s t : inv s -> nth_error (pcs s) t = Some EMake -> good (run_pc explicit t EMake s).
Proof.
  intros Hi Ep. live_call Hi Ep. open. useEa Ea. cbn [good]. mine Ep wmk. destruct (i_mk _ _ Hi ltac:(lia)) as [Hsr Hex]. pose proof (wr_split (pcs s)) as Sr. pose proof (i_r _ _ Hi) as Hrr.
  pose proof (i_ns _ _ Hi ltac:(lia)) as Hns. pose proof (i_np _ _ Hi ltac:(lia)) as Hnp.
  assert (Ho : once s <> Some true) by (intro Ho; destruct (i_j _ _ Hi (or_intror Ho)); congruence).
  assert (Hal : allowed explicit (trace s) (Made (nrd s))).
  { split; [now apply alive_gone|]. split; [|now apply no_ret]. intro H. apply made_in in H. rewrite (i_nm _ _ Hi), Nat.ltb_irrefl in H. cbn in H. lia. }
  assert (Hdata : forall s' p', nrd s' = S (nrd s) -> trace s' = trace s ++ [Made (nrd s)] -> data s' p' -> forall t0 p0, nth_error (upd (pcs s) t p') t0 = Some p0 -> data s' p0).
  { intros s' p' E1 E2 Hd t0 p0 Hp0. rewrite nth_upd in Hp0. destruct (Nat.eqb_spec t0 t) as [->|Hn].
    - destruct (t <? length (pcs s)); [|discriminate]. now injection Hp0 as <-.
    - pose proof (i_data _ _ Hi _ _ Hp0) as Hd0. pose proof (sumw_ge wes _ _ _ Hp0) as H2. pose proof (sumw_ge wrl _ _ _ Hp0) as H3.
      destruct p0; cbn [LifeProofs.data wes wrl] in *; rewrite ?E1, ?E2, ?ns_snoc; auto; try lia. }
  assert (Hpend : forall s', nrd s' = S (nrd s) -> trace s' = trace s ++ [Made (nrd s)] -> Forall (pend_ok s') (pend s)).
  { intros s' E1 E2. eapply Forall_impl; [|apply (i_pend _ _ Hi)]. intros [r|]; cbn [pend_ok]; [|auto]. rewrite E1, E2, ns_snoc. lia. }
  destruct explicit eqn:Ex; quiet Hi Ep; proj; auto.
  all: try (intro r0; rewrite nm_snoc, (i_nm _ _ Hi); cbn [is_made]; apply b2n_step).
  all: try (rewrite nr_snoc; cbn [is_ret]; rewrite Nat.add_0_r; apply (i_ret _ _ Hi)).
  all: try (rewrite ng_snoc; cbn [is_gone]; rewrite Nat.add_0_r; apply (i_gone _ _ Hi)).
  all: try (apply ordered_snoc; [apply (i_ord _ _ Hi)|exact Hal]).
  all: try (intros H r; rewrite np_snoc, Hnp, Hsr; reflexivity).
  all: try (intro H; rewrite nr_snoc; mv Ep EUnlock wde; mv Ep (EStart (nrd s)) wde; pose proof (i_rtd _ _ Hi ltac:(lia)); lia).
  all: try (got Hi i_refs; rewrite Ea in *; mv Ep EUnlock wctx; mv Ep (EStart (nrd s)) wctx; lia).
  - apply Hdata; auto. exact I.
  - intros _ r. rewrite ns_snoc, Hns. cbn [andb] in Hex. rewrite Hex. reflexivity.
  - apply Hdata; auto. cbn [LifeProofs.data nrd trace]. repeat split; auto. intro r'. rewrite ns_snoc, Hns. cbn [is_started]. rewrite Nat.add_0_r, (i_im _ _ Hi eq_refl). reflexivity.
  - mv Ep (EStart (nrd s)) wes. intro. lia.
Qed.

Lemma run_ok s t p : inv s -> nth_error (pcs s) t = Some p -> good (run_pc explicit t p s).
Proof.
  intros Hi Ep. destruct p.
  - exact I.
  - apply e_ok; auto.
  - now apply echeck_ok.
  - now apply emake_ok.
  - now apply estart_ok.
  - apply e_ok; auto.
  - apply e_ok; auto.
  - now apply stest_ok.
  - now apply sloop_ok.
  - apply e_ok; auto.
  - apply f_ok; auto.
  - now apply frun_ok.
  - apply f_ok; auto.
  - apply (t_ok s t _ d); auto.
  - apply (t_ok s t _ d); auto.
  - apply (t_ok s t _ d); auto.
  - apply (t_ok s t _ d); auto 6.
  - apply (t_ok s t _ d); auto 6.
  - now apply tret_ok.
  - apply (r_ok s t _ k); auto.
  - now apply rflush_ok.
  - apply (r_ok s t _ k); auto.
  - now apply rloop_ok.
  - apply (r_ok s t _ k); auto.
  - now apply hlock_ok.
  - now apply hself_ok.
  - now apply hbody_ok.
  - apply (hend_ok s t _ st); auto.
  - apply (hend_ok s t _ true); auto.
  - now apply hunlock_ok.
  - now apply plock_ok.
  - now apply pself_ok.
  - now apply pbody_ok.
  - now apply punlock_ok.
  - now apply destroy_ok.
Qed.
Lemma submit_ok s h : inv s -> pend_ok s h -> inv (submit h 1 s).
Proof.
  intros Hi Hh. pose proof Hi as Hi0. destruct Hi0. split; proj; auto.
  - rewrite app_length, i_refs0. cbn [length]. clear. lia.
  - apply Forall_app. auto.
Qed.
Lemma body_ok s t r ctx st a : inv s -> nth_error (pcs s) t = Some (HBody r ctx st) -> good (body t r ctx st a s).
Proof.
  intros Hi Ep. live_wh Hi Ep. unfold body. pose proof (i_data _ _ Hi _ _ Ep) as [Hr Hst]. mine Ep wb. pose proof (i_b _ _ Hi ltac:(lia)) as Es.
  destruct (not_done s Hi Es) as [_ Ho]. destruct (not_stopped_wrl s Hi Es) as [Hw Hs].
  assert (Hi' : inv (emit (Ran r) s)).
  { apply emit_ok; auto; [exact I|discriminate|]. split; [now apply alive_gone|]. split; [apply made_in; rewrite (i_nm _ _ Hi); destruct (Nat.ltb_spec r (nrd s)); cbn; lia|].
    split; [now apply started_in|]. split; [now apply no_stopped|now apply no_ret]. }
  rewrite (on_reader_ok r (emit (Ran r) s) _ Ea Hr).
  assert (Ep' : nth_error (pcs (emit (Ran r) s)) t = Some (HBody r ctx st)) by exact Ep.
  assert (Ea' : alive (emit (Ran r) s) = true) by exact Ea. assert (Es' : stopped (emit (Ran r) s) = false) by exact Es. assert (Ho' : once (emit (Ran r) s) <> Some true) by exact Ho.
  revert Hi' Ep' Ea' Es' Ho'. generalize (emit (Ran r) s). clear. intros s Hi Ep Ea Es Ho. pose proof (i_data _ _ Hi _ _ Ep) as Hd. destruct (not_stopped_wrl s Hi Es) as [Hw Hs]. destruct a as [n heaps stop| | |].
  - destruct st; [exact I|]. rewrite Es. cbn [good].
    assert (Hi' : inv (if heaps then emit Heaps (set_live n s) else set_live n s)).
    { assert (H : inv (set_live n s)) by (apply set_live_ok; auto; congruence). destruct heaps; [|exact H]. apply emit_ok; auto; [exact I|discriminate|].
      split; [now apply (alive_gone s)|]. split; [now apply (no_stopped s)|now apply (no_ret s)]. }
    assert (Ep' : nth_error (pcs (if heaps then emit Heaps (set_live n s) else set_live n s)) t = Some (HBody r ctx false)) by (destruct heaps; exact Ep).
    revert Hi' Ep'. generalize (if heaps then emit Heaps (set_live n s) else set_live n s). clear. intros s Hi Ep. pose proof (i_data _ _ Hi _ _ Ep) as Hd. destruct ctx, stop; quiet Hi Ep; exact Hd.
  - cbn [good]. destruct ctx; quiet Hi Ep; exact Hd.
  - destruct ctx; [|exact I]. cbn [good]. destruct st; quiet Hi Ep; auto.
    all: try (rewrite app_length; cbn [length]; got Hi i_refs; mv Ep (HBody r false true) wctx; mv Ep (HBody r false false) wctx; lia).
    all: apply Forall_app; split; [apply (i_pend _ _ Hi)|constructor; [exact Hd|constructor]].
  - cbn [good]. assert (Hi' : inv (submit (Bound r) 1 s)) by (apply submit_ok; [exact Hi|exact Hd]).
    assert (Ep' : nth_error (pcs (submit (Bound r) 1 s)) t = Some (HBody r ctx st)) by exact Ep. revert Hi' Ep'. generalize (submit (Bound r) 1 s). clear. intros s Hi Ep. unfold goto.
    rewrite (upd_id _ _ _ Ep). now destruct s.
Qed.
Lemma call_ok s t o : inv s -> nth_error (pcs s) t = Some Idle -> good (call t o s).
Proof.
  intros Hi Ep. unfold call. destruct (dying s) eqn:Ed; [exact I|]. assert (Ea : alive s = true) by (destruct (alive s) eqn:Ea; [reflexivity|]; destruct (i_a _ _ Hi Ea); congruence).
  destruct o; try (cbn [good]; quiet Hi Ep).
  - useEa Ea. cbn [good]. apply submit_ok; [exact Hi|exact I].
  - destruct (existsb in_call (pcs s)) eqn:Ex; [exact I|]. cbn [good].
    assert (Hn : sumw wn (pcs s) = 0).
    { apply sumw_out. intros p Hp. unfold wn. destruct (in_call p) eqn:E; [|reflexivity]. exfalso. assert (H : existsb in_call (pcs s) = true) by (apply existsb_exists; eauto). congruence. }
    pose proof (i_d _ _ Hi) as Hd. rewrite Ed in Hd. cbn in Hd. quiet Hi Ep; auto. intro; congruence.
Qed.
Lemma unpend_len k (l : list handler) h : nth_error l k = Some h -> length l = S (length (firstn k l ++ skipn (S k) l)).
Proof.
  intro H. rewrite app_length, firstn_length, skipn_length. assert (k < length l) by (apply nth_error_Some; congruence). lia.
Qed.
Lemma unpend_forall (P : handler -> Prop) k l : Forall P l -> Forall P (firstn k l ++ skipn (S k) l).
Proof. intro H. rewrite Forall_forall in *. intros x Hx. apply H. apply in_app_or in Hx. destruct Hx as [Hx|Hx]; [rewrite <- (firstn_skipn k l); apply in_or_app; now left|rewrite <- (firstn_skipn (S k) l); apply in_or_app; now right]. Qed.
Lemma dispatch_ok s t k : inv s -> good (next explicit s (Dispatch t k)).
Proof.
  intro Hi. cbn [next]. destruct (nth_error (pcs s) t) as [p|] eqn:Ep; [|exact I]. destruct p; try exact I. destruct (nth_error (pend s) k) as [h|] eqn:Eh; [|exact I].
  pose proof (unpend_len _ _ _ Eh) as Hl. pose proof (unpend_forall (pend_ok s) k _ (i_pend _ _ Hi)) as Hf. assert (Hh : pend_ok s h) by (pose proof (i_pend _ _ Hi) as Hp; rewrite Forall_forall in Hp; apply Hp; now apply nth_error_In in Eh).
  destruct h as [r|]; cbn [good]; quiet Hi Ep; auto.
Qed.
Lemma drop_ok s k : inv s -> good (next explicit s (Drop k)).
Proof.
  intro Hi. cbn [next]. destruct (nth_error (pend s) k) as [h|] eqn:Eh; [|exact I].
  pose proof (unpend_len _ _ _ Eh) as Hl. pose proof (unpend_forall (pend_ok s) k _ (i_pend _ _ Hi)) as Hf. pose proof (i_refs _ _ Hi) as Hrf.
  rewrite release_ok.
  - cbn [good]. pose proof Hi as Hi0. destruct Hi0. unfold drop_refs. split; proj; auto. lia.
  - cbn [unpend refs]. lia.
  - cbn [unpend refs qm]. intro E1. destruct (qm s) eqn:Eq; [|reflexivity]. exfalso.
    (* the holder of queue_mutex has a pointer, or the stream is alive *)
    destruct (alive s) eqn:Ea; [lia|]. assert (Hc : sumw wctx (pcs s) = 0) by lia. destruct (i_a _ _ Hi Ea) as [Hd Ho]. pose proof (i_c _ _ Hi Hd) as Hn. destruct (i_j _ _ Hi (or_intror Ho)) as [_ Hw].
    pose proof (i_d _ _ Hi) as Hd'. rewrite Ea, andb_false_r in Hd'. cbn [Nat.b2n] in Hd'. pose proof (i_q _ _ Hi) as Hq. rewrite Eq, wq_split in Hq. cbn [Nat.b2n] in Hq.
    assert (H2 : sumw wx (pcs s) <= sumw wn (pcs s) + sumw wd (pcs s) + sumw wctx (pcs s)); [|lia].
    clear. induction (pcs s) as [|p l IH]; cbn [sumw]; [lia|]. assert (wx p <= wn p + wd p + wctx p); [|lia].
    destruct p; cbn [wx wn wd wctx in_call Nat.b2n Nat.sub]; try lia; try (destruct d; cbn; lia); destruct ctx; cbn; lia.
Qed.
Theorem next_ok s l : inv s -> good (next explicit s l).
Proof.
  intro Hi. destruct l as [t|t a|t o|t k|k].
  - cbn [next]. destruct (nth_error (pcs s) t) as [p|] eqn:Ep; [|exact I]. now apply run_ok.
  - cbn [next]. destruct (nth_error (pcs s) t) as [p|] eqn:Ep; [|exact I]. destruct p; try exact I. now apply body_ok.
  - cbn [next]. destruct (nth_error (pcs s) t) as [p|] eqn:Ep; [|exact I]. destruct p; try exact I. now apply call_ok.
  - now apply dispatch_ok.
  - now apply drop_ok.
Qed.
Theorem reach_inv n s : reach explicit n s -> inv s.
Proof. induction 1 as [|s l s' _ IH E]; [apply inv_init|]. pose proof (next_ok s l IH) as H. now rewrite E in H. Qed.
End Step.
