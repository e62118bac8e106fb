(** C74: synchronous sends from Python. *)
From Coq Require Import ZArith List Lia Bool.
From Verif Require Import ConcBase SyncSendModel SyncSendSpec SyncSendProofs.
Import ListNotations.

(** ** Memory safety *)

(** The state shared with the callback is there whenever the callback or the
    call uses it, interrupted or not, careful or not. *)
Theorem C74_state : forall cap ls, srun (sst_init cap) ls [] <> Some (Ub UState).
Proof.
  intros cap ls. induction ls as [|l ls IH] using rev_ind; [discriminate|]. rewrite srun_app.
  destruct (srun (sst_init cap) ls []) as [[s es|u]|] eqn:E; auto. cbn [srun].
  destruct (sstep s l) as [[s' e|u]|] eqn:St; try discriminate.
  destruct (inv_step _ _ _ _ _ (inv_run _ _ _ _ E) St) as [-> _]. discriminate.
Qed.
Print Assumptions C74_state.

(** A program that keeps the heaps of calls that were interrupted, or whose
    list was changed, until the stream has finished with them, is safe. *)
Theorem C74_safe_careful : forall cap ls u, careful cap ls -> srun (sst_init cap) ls [] <> Some (Ub u).
Proof.
  intros cap ls u. induction ls as [|l ls IH] using rev_ind; [discriminate|]. intros Ca R. rewrite srun_app in R.
  assert (Ca1 : careful cap ls).
  { intros l1 l2 s es c hs h -> R1. apply (Ca l1 (l2 ++ [l])); [now rewrite app_assoc|exact R1]. }
  destruct (srun (sst_init cap) ls []) as [[s es|u']|] eqn:E; [|injection R as ->; exact (IH Ca1 eq_refl)|discriminate].
  cbn [srun] in R. pose proof (inv_run _ _ _ _ E) as I.
  destruct (sstep s l) as [[s' e|u']|] eqn:St; try discriminate.
  destruct (inv_step _ _ _ _ _ I St) as (_ & g & q & j & h & n & -> & Eq & Ej & Lv).
  assert (Hg : In g (y_queue s)) by (rewrite Eq; now left).
  destruct (queue_call _ _ _ _ I Hg) as (k & Hk). destruct (i_group _ _ _ I g k Hg Hk) as [Eh _].
  assert (Hh : In h (k_heaps k)) by (rewrite <- Eh; now apply nth_error_In in Ej).
  pose proof (i_range _ _ _ I _ _ _ Hk Hh) as Lt. apply nth_error_Some in Lt.
  destruct (nth_error (y_heaps s) h) as [o|] eqn:Eo; [clear Lt|now destruct Lt].
  unfold live in Lv. rewrite Eo in Lv. apply Nat.ltb_ge in Lv.
  pose proof (i_call _ _ _ I _ _ Hk) as [A B C D F G H J K].
  assert (Cb : k_cb k = true).
  { destruct (k_cb k); [reflexivity|]. unfold inq in B. pose proof (count_in _ _ (in_map gq_call _ _ Hg)). cbn [b2n] in B. lia. }
  rewrite Cb in *. cbn [b2n] in *. destruct (k_held k) eqn:Hd.
  - pose proof (held_le _ _ _ _ _ _ _ I Hk Eo) as Le. unfold callw in Le. rewrite Hd in Le. pose proof (count_in _ _ Hh). lia.
  - destruct (J eq_refl) as [Lo|]; [|discriminate].
    assert (U : 0 < user_refs s h).
    { eapply (Ca ls [LRead j n]); eauto. intros (r & b & Dn). pose proof (done_ends _ _ _ _ Dn). lia. }
    unfold user_refs in U. rewrite Eo in U. rewrite (i_rc _ _ _ I _ _ Eo) in Lv. lia.
Qed.
Print Assumptions C74_safe_careful.

Lemma step_event s l s' e : sstep s l = Some (Ok s' e) -> quiet l = true -> forall c, ~ In (VIntr c) e /\ ~ In (VClear c) e.
Proof.
  intros R Q c.
  assert (X : forall x, In x e -> match x with VIntr _ | VClear _ => False | _ => True end); [|split; intro H; exact (X _ H)].
  intros x Hx. destruct l as [|h|h|f t args|c0|c0|c0|j n|r|j| |]; cbn [sstep] in R; try discriminate Q; unfold run_callback, do_send in R;
    repeat match type of R with
    | (if ?b then _ else _) = _ => destruct b
    | match ?b with _ => _ end = _ => destruct b
    end; try discriminate R; injection R as <- <-;
    repeat match goal with H : In _ (match ?v with _ => _ end) |- _ => destruct v end;
    try (destruct Hx as [<-|[]]; exact Logic.I); destruct Hx.
Qed.

Lemma quiet_events cap ls s es c : srun (sst_init cap) ls [] = Some (Ok s es) -> forallb quiet ls = true -> ~ loose c es.
Proof.
  revert s es. induction ls as [|l ls IH] using rev_ind; intros s es R Q; [injection R as <- <-; intros [[]|[]]|].
  rewrite srun_app in R. rewrite forallb_app in Q. apply andb_true_iff in Q as [Q1 Q2]. cbn [forallb] in Q2. rewrite andb_true_r in Q2.
  destruct (srun (sst_init cap) ls []) as [[s1 es1|u]|] eqn:E; try discriminate. cbn [srun] in R.
  destruct (sstep s1 l) as [[s2 e|u]|] eqn:St; try discriminate. injection R as <- <-.
  specialize (IH _ _ eq_refl Q1). destruct (step_event _ _ _ _ St Q2 c) as [X Y].
  intros [H|H]; apply in_app_or in H as [H|H]; auto; apply IH; [now left|now right].
Qed.

(** Without signals and without changes to a list that was passed, any program is
    safe: it may drop its own references while the call is in progress. *)
Theorem C74_safe_quiet : forall cap ls u, forallb quiet ls = true -> srun (sst_init cap) ls [] <> Some (Ub u).
Proof.
  intros cap ls u Q. apply C74_safe_careful. intros l1 l2 s es c hs h -> R _ Lo. exfalso.
  rewrite forallb_app in Q. apply andb_true_iff in Q as [Q _]. exact (quiet_events _ _ _ _ _ R Q Lo).
Qed.
Print Assumptions C74_safe_quiet.

(** ** Results *)

(** What a call returns or raises is what the stream reported for its heaps;
    the stream reports once, the call comes back at most once; and the count
    returned is the number of bytes sent from them. *)
Theorem C74_result : forall cap ls s es c r b,
  srun (sst_init cap) ls [] = Some (Ok s es) -> In (VRet c r b) es ->
  done c r b es /\ ends c es = 1 /\ returns c es = 1 /\ b = bytes_of c es.
Proof.
  intros cap ls s es c r b R H. pose proof (inv_run _ _ _ _ R) as I. pose proof (i_ret _ _ _ I _ _ _ H) as Dn.
  assert (Rt : 1 <= returns c es).
  { apply In_nth_error in H as (m & Hm).
    pose proof (sumw_ge (fun e => match e with VRet c' _ _ | VIntr c' => if c' =? c then 1 else 0 | _ => 0 end) _ _ _ Hm) as G.
    cbn beta iota in G. rewrite Nat.eqb_refl in G. exact G. }
  pose proof (done_ends _ _ _ _ Dn) as En.
  destruct (nth_error (y_calls s) c) as [k|] eqn:Hk.
  - pose proof (i_call _ _ _ I _ _ Hk) as [A B C D _ _ _ _ _]. repeat split; [exact Dn|lia|lia|].
    destruct Dn as [Dn|[Dn ->]]; [exact (i_sent _ _ _ I _ _ _ Dn)|]. now destruct (i_refused _ _ _ I _ _ Dn) as [_ ->].
  - apply nth_error_None in Hk. destruct (i_none _ _ _ I _ Hk) as (_ & Z & _). lia.
Qed.
Print Assumptions C74_result.

(** Heaps are accepted as a whole or not at all: exactly when there is at least
    one, all are good and the queue has room for them. *)
Lemma accept_all_none room args : accept_all room args = None <-> Forall (fun a => snd a = AOk) args /\ length args <= room.
Proof.
  revert room. induction args as [|[h v] r IH]; intro room; cbn [accept_all length]; [split; [intros _; split; [constructor|lia]|reflexivity]|].
  split.
  - intro H. destruct v, room as [|room]; try discriminate H. apply IH in H as [H1 H2]. split; [constructor; auto|lia].
  - intros [H1 H2]. inversion H1 as [|? ? Hv Hr]; subst. cbn [snd] in Hv. subst v. destruct room as [|room]; [lia|]. apply IH. split; [exact Hr|lia].
Qed.
Theorem C74_accept : forall s f t args s' e,
  used (y_queue s) <= y_cap s -> sstep s (LSend f t args) = Some (Ok s' e) ->
  (e = [VAccept (length (y_calls s))] /\ map gq_heaps (y_queue s') = map gq_heaps (y_queue s) ++ [map fst args]
     /\ args <> [] /\ Forall (fun a => snd a = AOk) args /\ used (y_queue s) + length args <= y_cap s)
  \/ (e = [] /\ y_queue s' = y_queue s /\ ~ (args <> [] /\ Forall (fun a => snd a = AOk) args /\ used (y_queue s) + length args <= y_cap s)).
Proof.
  intros s f t args s' e Hu R. cbn [sstep] in R. match type of R with (if ?b then _ else _) = _ => destruct b end; [|discriminate].
  unfold do_send in R. cbn zeta in R. destruct (verdict (y_cap s - used (y_queue s)) args) as [r|] eqn:V; injection R as <- <-; cbn [y_queue].
  - right. split; [reflexivity|]. split; [reflexivity|]. intros (Ne & Fa & Le). destruct args as [|a args]; [now apply Ne|].
    unfold verdict in V. assert (X : accept_all (y_cap s - used (y_queue s)) (a :: args) = None) by (apply accept_all_none; split; [exact Fa|lia]). congruence.
  - left. split; [reflexivity|]. split; [now rewrite map_app|]. destruct args as [|a args]; [discriminate V|]. unfold verdict in V.
    apply accept_all_none in V as [V1 V2]. split; [discriminate|]. split; [exact V1|]. cbn [length] in *. lia.
Qed.
Print Assumptions C74_accept.

(** Accepted heaps are sent in the order of the calls, none twice, interrupted or
    not; what is not yet sent is still queued, within the capacity. *)
Theorem C74_order : forall cap ls s es,
  srun (sst_init cap) ls [] = Some (Ok s es) ->
  accepted es = sent es ++ map gq_call (y_queue s) /\ NoDup (accepted es) /\ used (y_queue s) <= cap.
Proof.
  intros cap ls s es R. pose proof (inv_run _ _ _ _ R) as I. split; [apply (i_order _ _ _ I)|]. split.
  - rewrite (i_order _ _ _ I). apply (NoDup_count_occ Nat.eq_dec). intro c. change (count c (sent es ++ map gq_call (y_queue s)) <= 1).
    rewrite count_app. assert (Se : count c (sent es) <= ends c es).
    { clear. induction es as [|x es IH]; [apply Nat.le_refl|]. change (x :: es) with ([x] ++ es).
      rewrite sent_app, count_app, ends_app. enough (count c (sent [x]) <= ends c [x]) by lia.
      destruct x as [c'|c' h n|c' r b|c' r|c' r b|c'|c'|]; try apply Nat.le_0_l.
      change (sent [VSent c' r b]) with [c']. rewrite count_one. unfold ends. cbn [sumw]. lia. }
    assert (Q : count c (map gq_call (y_queue s)) <= inq s c) by (unfold inq; lia).
    destruct (nth_error (y_calls s) c) as [k|] eqn:Hk.
    + pose proof (i_call _ _ _ I _ _ Hk) as [A B C D _ _ _ _ _]. lia.
    + apply nth_error_None in Hk. destruct (i_none _ _ _ I _ Hk) as (Z1 & Z2 & _). lia.
  - assert (y_cap s = cap) as <-; [|apply (i_cap _ _ _ I)].
    clear I. revert s es R. induction ls as [|l ls IH] using rev_ind; intros s es R; [now injection R as <- <-|].
    rewrite srun_app in R. destruct (srun (sst_init cap) ls []) as [[s1 es1|u]|] eqn:E; try discriminate. rewrite <- (IH _ _ eq_refl).
    cbn [srun] in R. destruct (sstep s1 l) as [[s2 e|u]|] eqn:St; try discriminate. injection R as <- <-. clear - St.
    destruct l as [|h|h|f t args|c0|c0|c0|j n|r|j| |]; cbn [sstep] in St; unfold run_callback, do_send in St;
    repeat match type of St with
    | (if ?b then _ else _) = _ => destruct b
    | match ?b with _ => _ end = _ => destruct b
    end; try discriminate St; injection St as <- _; reflexivity.
Qed.
Print Assumptions C74_order.

(** Refused heaps: an error is reported, nothing of them is sent. *)
Theorem C74_refused : forall cap ls s es c r,
  srun (sst_init cap) ls [] = Some (Ok s es) -> In (VRefused c r) es -> r <> ENone /\ bytes_of c es = 0 /\ ~ In c (sent es).
Proof.
  intros cap ls s es c r R H. pose proof (inv_run _ _ _ _ R) as I. destruct (i_refused _ _ _ I _ _ H) as [X Y].
  split; [exact X|]. split; [exact Y|]. intro Hs. apply in_flat_map in Hs as (x & Hx & Hc).
  destruct x as [| |c' r' b| | | | |]; try destruct Hc as []. 2: contradiction. subst c'.
  apply in_split in H as (l1 & l2 & El). rewrite El in Hx. 
  assert (Two : 2 <= ends c es).
  { rewrite El. apply in_app_or in Hx. change (VRefused c r :: l2) with ([VRefused c r] ++ l2). rewrite !ends_app.
    assert (O : ends c [VRefused c r] = 1) by (unfold ends; cbn [sumw]; rewrite Nat.eqb_refl; reflexivity).
    destruct Hx as [Hx|[Hx|Hx]]; [|discriminate Hx|]; assert (W : 1 <= ends c l1 \/ 1 <= ends c l2);
      try (left; eapply done_ends; left; exact Hx); try (right; eapply done_ends; left; exact Hx); lia. }
  destruct (nth_error (y_calls s) c) as [k|] eqn:Hk.
  - pose proof (i_call _ _ _ I _ _ Hk) as [A B C D _ _ _ _ _]. lia.
  - apply nth_error_None in Hk. destruct (i_none _ _ _ I _ Hk) as (_ & Z & _). lia.
Qed.
Print Assumptions C74_refused.

(** ** Progress *)

(** No call waits for ever: when the stream has no more work, every call in
    progress can return. *)
Theorem C74_no_lost_wakeup : forall cap ls s es c k,
  srun (sst_init cap) ls [] = Some (Ok s es) -> y_queue s = [] -> y_posted s = [] ->
  nth_error (y_calls s) c = Some k -> k_wait k = true ->
  exists s' r b, sstep s (LWake c) = Some (Ok s' [VRet c r b]) /\ done c r b es.
Proof.
  intros cap ls s es c k R Eq Ep Hk W. pose proof (inv_run _ _ _ _ R) as I.
  pose proof (i_call _ _ _ I _ _ Hk) as [A B C D F G H J K].
  assert (Cb : k_cb k = false).
  { unfold inq in B. rewrite Eq, Ep in B. destruct (k_cb k); [discriminate B|reflexivity]. }
  rewrite Cb, W in *. cbn [b2n] in *. specialize (F eq_refl). cbn [sstep].
  assert (Op : y_mode s = Open).
  { destruct (y_mode s) eqn:Em; [reflexivity| |]; exfalso; assert (X : k_wait k = false) by (apply (i_nowait _ _ _ I); [rewrite Em; discriminate|now apply nth_error_In in Hk]); congruence. }
  rewrite Op. cbn [py_free]. rewrite Hk, W. destruct (k_rc k =? 0) eqn:Z; [apply Nat.eqb_eq in Z; lia|].
  destruct (k_sem k) as [|m]; [lia|]. do 3 eexists. split; [reflexivity|auto].
Qed.
Print Assumptions C74_no_lost_wakeup.

(** When the destructor of the stream has returned, everything accepted was sent,
    including the heaps of calls that were interrupted. *)
Theorem C74_closed : forall cap ls s es,
  srun (sst_init cap) ls [] = Some (Ok s es) -> y_mode s = Closed ->
  accepted es = sent es /\ forall c, In c (accepted es) -> exists r b, In (VSent c r b) es.
Proof.
  intros cap ls s es R M. pose proof (inv_run _ _ _ _ R) as I. pose proof (i_order _ _ _ I) as O.
  rewrite (i_closed _ _ _ I M) in O. cbn [map] in O. rewrite app_nil_r in O. split; [exact O|]. intros c Hc. rewrite O in Hc.
  apply in_flat_map in Hc as (x & Hx & Hc). destruct x as [| |c' r b| | | | |]; try destruct Hc as []; [subst c'; eauto|contradiction].
Qed.
Print Assumptions C74_closed.

(** ** Findings *)

(** F45: a signal handler that raises (Ctrl-C) ends the call while the heap is
    still queued.  If the program then drops the heap - it was a temporary, say -
    the stream sends from freed memory.  No careful program is needed for the
    callback state, which is shared; nothing keeps the heap. *)
Definition ctrl_c : list slab := [LNew; LSend FOne 0 [(0, AOk)]; LIntr 0; LUnref 0; LRead 0 100].
Theorem C74_interrupt_refuted : exists ls, srun (sst_init 4) ls [] = Some (Ub UHeap).
Proof. exists ctrl_c. reflexivity. Qed.
Print Assumptions C74_interrupt_refuted.

(** F46: the list form of [send_heaps] refers to the list only; when another
    thread empties it during the call the heaps can go, without any signal. *)
Definition emptied : list slab := [LNew; LSend FList 0 [(0, AOk)]; LUnref 0; LClear 0; LRead 0 100].
Theorem C74_list_refuted : exists ls,
  forallb (fun l => match l with LIntr _ => false | _ => true end) ls = true /\ srun (sst_init 4) ls [] = Some (Ub UHeap).
Proof. exists emptied. split; reflexivity. Qed.
Print Assumptions C74_list_refuted.

(** ** Examples *)

(** Two threads send, one with two heaps; a third call finds no room; a fourth has
    a bad substream; the program drops a heap during the call. *)
Definition two_threads : list slab :=
  [LNew; LNew; LSend FOne 0 [(0, AOk)]; LUnref 0; LSend FHrl 1 [(1, AOk); (1, AOk)]; LSend FOne 2 [(1, AOk)]; LPosted 0; LWake 2;
   LSend FList 2 [(1, ABadSub)]; LRead 0 10; LRead 0 20; LFinish ENone; LWake 0; LRead 1 5; LFinish (EOther 7); LWake 1; LPosted 0; LWake 3;
   LClose; LCloseDone].
Example C74_example : exists s es, srun (sst_init 3) two_threads [] = Some (Ok s es) /\ forallb quiet two_threads = true /\
  In (VRet 0 ENone 30) es /\ In (VRet 1 (EOther 7) 5) es /\ In (VRet 2 EWouldBlock 0) es /\ In (VRet 3 EInval 0) es /\
  accepted es = [0; 1] /\ y_mode s = Closed.
Proof. do 2 eexists. split; [vm_compute; reflexivity|]. repeat split; vm_compute; tauto. Qed.

(** A careful program: the heap of an interrupted call is kept until it is sent. *)
Definition kept_run : list slab := [LNew; LSend FOne 0 [(0, AOk)]; LIntr 0; LRead 0 10; LFinish ENone; LUnref 0; LClose; LCloseDone].
Example C74_example_careful : careful 4 kept_run /\ exists s es, srun (sst_init 4) kept_run [] = Some (Ok s es) /\ sent es = [0] /\ returns 0 es = 1.
Proof.
  split; [|do 2 eexists; split; [vm_compute; reflexivity|split; reflexivity]].
  intros l1 l2 s es c hs h E R Hc Lo Nf Hh. unfold kept_run in E.
  do 9 (destruct l1 as [|x l1]; [clear E; vm_compute in R; injection R as <- <-; destruct c as [|[|c]]; try discriminate Hc; cbn in Hc; injection Hc as <-; destruct Hh as [<-|[]];
     try (cbn; lia); exfalso; (destruct Lo as [Lo|Lo]; cbn in Lo; intuition discriminate) || (apply Nf; exists ENone, 10; left; cbn; tauto)
    |cbn in E; try discriminate E; injection E as <- E]).
Qed.
