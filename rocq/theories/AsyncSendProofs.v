(** Invariants of asynchronous sends (AsyncSendModel.v). *)
From Coq Require Import ZArith List Lia Bool Sorted.
From Verif Require Import ConcBase AsyncSendModel.
Import ListNotations.

Definition comps (l : list sev) : list (nat * Z) := flat_map (fun e => match e with VComplete i v => [(i, v)] | _ => [] end) l.
Definition calls (l : list sev) : list (nat * Z) := flat_map (fun e => match e with VCall i v => [(i, v)] | _ => [] end) l.
Lemma comps_app a b : comps (a ++ b) = comps a ++ comps b. Proof. apply flat_map_app. Qed.
Lemma calls_app a b : calls (a ++ b) = calls a ++ calls b. Proof. apply flat_map_app. Qed.
Lemma in_calls l i v : In (i, v) (calls l) <-> In (VCall i v) l.
Proof.
  unfold calls. rewrite in_flat_map. split.
  - intros ([|j w] & H & H'); cbn in H'; [tauto|]. destruct H' as [[= -> ->]|[]]. exact H.
  - intro H. exists (VCall i v). split; [exact H|now left].
Qed.
Lemma in_comps l i v : In (i, v) (comps l) <-> In (VComplete i v) l.
Proof.
  unfold comps. rewrite in_flat_map. split.
  - intros ([j w|] & H & H'); cbn in H'; [|tauto]. destruct H' as [[= -> ->]|[]]. exact H.
  - intro H. exists (VComplete i v). split; [exact H|now left].
Qed.

Definition runl (s : asw) : list (nat * Z) := match w_loc s with LRun l => l | _ => [] end.
Definition acc (s : asw) (i : nat) : bool := match nth_error (w_sends s) i with Some x => x_acc x | None => false end.
Definition b2n (b : bool) : nat := if b then 1 else 0.
Definition nonempty {A} (l : list A) : bool := match l with [] => false | _ => true end.
Definition in_swap (s : asw) : bool := match w_loc s with LSwap => true | _ => false end.

(** A flush waits for the last request accepted before it. *)
Definition flush_ok (s : asw) (log : list sev) (y : flush) : Prop :=
  y_before y <= length (w_sends s) /\
  match y_target y with
  | None => forall i, i < y_before y -> acc s i = true -> In i (map fst (calls log))
  | Some t => t < y_before y /\ acc s t = true /\ (forall i, i < y_before y -> acc s i = true -> i <= t) /\ (y_ret y = true -> fut_done s t = true)
  end.

Record jinv (ls : list slab) (s : asw) (log : list sev) : Prop := {
  j_flow : comps log = calls log ++ runl s ++ w_cbs s;
  j_nodup : NoDup (map fst (comps log) ++ w_inq s ++ w_rej s);
  j_all : forall i, i < length (w_sends s) <-> In i (map fst (comps log) ++ w_inq s ++ w_rej s);
  j_sort : StronglySorted lt (filter (acc s) (map fst (comps log)) ++ w_inq s);
  j_inq : forall i, In i (w_inq s) -> acc s i = true;
  j_rej : forall i, In i (w_rej s) -> acc s i = false;
  j_active : w_active s = length (runl s ++ w_cbs s) + length (w_inq s) + length (w_rej s);
  j_reader : w_reader s = negb (Nat.eqb (w_active s) 0);
  j_res : forall i x v, nth_error (w_sends s) i = Some x -> x_fut x = SRes v -> In (i, v) (calls log);
  j_can : forall i x, nth_error (w_sends s) i = Some x -> x_fut x = SCancel -> In (WCancel i) ls;
  j_done : forall i, In i (map fst (calls log)) -> fut_done s i = true;
  j_last : match w_last s with
           | Some t => t < length (w_sends s) /\ acc s t = true /\ forall i, acc s i = true -> i <= t
           | None => forall i, acc s i = true -> In i (map fst (calls log))
           end;
  j_sem : w_sem s + w_puts s + b2n (in_swap s) = b2n (nonempty (w_cbs s));
  j_flush : Forall (flush_ok s log) (w_flushes s);
  j_loc : w_loc s = LGet \/ w_loc s = LSwap -> w_active s <> 0
}.

Lemma jinv_init : jinv [] asw_init [].
Proof.
  constructor; cbn; try (now constructor); try (now intros [|i]); try (now intros [|i] x); try (intuition (lia || discriminate)).
Qed.

Lemma acc_lt s i : acc s i = true -> i < length (w_sends s).
Proof. unfold acc. intro H. apply nth_error_Some. destruct (nth_error (w_sends s) i); congruence. Qed.
Lemma in_snoc {A} (l : list A) x y : In y (l ++ [x]) <-> In y l \/ y = x.
Proof. rewrite in_app_iff. cbn. intuition. Qed.
Lemma nth_snoc {A} (l : list A) x t y : nth_error (l ++ [x]) t = Some y -> nth_error l t = Some y \/ (t = length l /\ y = x).
Proof.
  intro H. destruct (Nat.lt_ge_cases t (length l)) as [Hl|Hl]; [left; now rewrite nth_error_app1 in H|].
  rewrite nth_error_app2 in H by exact Hl. right. destruct (t - length l) as [|n] eqn:En; cbn [nth_error] in H; [|destruct n; discriminate].
  split; [lia|congruence].
Qed.
Lemma sorted_snoc l x : StronglySorted lt l -> (forall y, In y l -> y < x) -> StronglySorted lt (l ++ [x]).
Proof.
  induction 1 as [|a l H IH F]; intro Hx; cbn [app]; constructor.
  - constructor. - constructor.
  - apply IH. intros y Hy. apply Hx. now right.
  - apply Forall_app. split; [exact F|]. constructor; [|constructor]. apply Hx. now left.
Qed.
Lemma NoDup_remove_mid {A} (a b : list A) x : NoDup (a ++ x :: b) -> NoDup (a ++ b) /\ ~ In x (a ++ b).
Proof. intro H. split; [eapply NoDup_remove_1|eapply NoDup_remove_2]; exact H. Qed.
Lemma NoDup_snoc {A} (l : list A) x : NoDup l -> ~ In x l -> NoDup (l ++ [x]).
Proof. intros H1 H2. apply (NoDup_Add (Add_app x l [])). rewrite app_nil_r. auto. Qed.
Lemma NoDup_move {A} (a b : list A) x : NoDup (a ++ x :: b) <-> NoDup ((a ++ [x]) ++ b).
Proof. now rewrite <- app_assoc. Qed.

Lemma acc_same s s' : (forall i, option_map x_acc (nth_error (w_sends s') i) = option_map x_acc (nth_error (w_sends s) i)) -> forall i, acc s' i = acc s i.
Proof. intros H i. unfold acc. specialize (H i). destruct (nth_error (w_sends s') i), (nth_error (w_sends s) i); cbn in H; congruence. Qed.

(** Steps that change neither the sends nor the place of any request. *)
Lemma jinv_loc ls s log l loc sem puts cbs :
  jinv ls s log -> match loc with LRun x => x | _ => [] end ++ cbs = runl s ++ w_cbs s ->
  sem + puts + b2n (match loc with LSwap => true | _ => false end) = b2n (nonempty cbs) ->
  (loc = LGet \/ loc = LSwap -> w_active s <> 0) ->
  jinv (ls ++ [l]) (with_loc s loc sem puts cbs) (log ++ []).
Proof.
  intros H Hf Hs Hl. rewrite app_nil_r. destruct H. constructor; unfold with_loc, runl, in_swap; cbn [w_sends w_active w_last w_reader w_flushes w_loc w_inq w_rej w_cbs w_sem w_puts]; auto.
  - now rewrite Hf.
  - now rewrite j_active0, Hf.
  - intros i x G1 G2. apply in_snoc. left. eauto.
Qed.

Lemma acc_do_send s b i : i < length (w_sends s) -> acc (do_send s b) i = acc s i.
Proof. intro H. unfold acc, do_send; cbn [w_sends]. now rewrite nth_error_app1. Qed.
Lemma acc_do_send_new s b : acc (do_send s b) (length (w_sends s)) = b.
Proof. unfold acc, do_send; cbn [w_sends]. rewrite nth_error_app2, Nat.sub_diag by lia. reflexivity. Qed.
Lemma filter_acc_ext (f g : nat -> bool) l : (forall i, In i l -> f i = g i) -> filter f l = filter g l.
Proof. induction l as [|x l IH]; intro H; cbn [filter]; [reflexivity|]. rewrite (H x (or_introl eq_refl)), IH; [reflexivity|]. intros i Hi. apply H. now right. Qed.

Lemma jinv_send ls s log b l : jinv ls s log -> w_loc s = LIdle -> jinv (ls ++ [l]) (do_send s b) (log ++ []).
Proof.
  intros H Hidle. rewrite app_nil_r. set (n := length (w_sends s)).
  assert (Hin : forall i, In i (map fst (comps log) ++ w_inq s ++ w_rej s) -> i < n) by (intros i Hi; now apply (j_all _ _ _ H)).
  assert (Hn : ~ In n (map fst (comps log) ++ w_inq s ++ w_rej s)) by (intro G; apply Hin in G; lia).
  assert (Hlen : length (w_sends (do_send s b)) = S n) by (cbn [do_send w_sends]; rewrite app_length; cbn; lia).
  assert (Hac : forall i, i < n -> acc (do_send s b) i = acc s i) by (intros; now apply acc_do_send).
  assert (Hnew : acc (do_send s b) n = b) by apply acc_do_send_new.
  assert (Hinl : forall i, In i (w_inq s) -> i < n) by (intros i Hi; apply Hin; rewrite !in_app_iff; auto).
  assert (Hrejl : forall i, In i (w_rej s) -> i < n) by (intros i Hi; apply Hin; rewrite !in_app_iff; auto).
  assert (Hcl : forall i, In i (map fst (comps log)) -> i < n) by (intros i Hi; apply Hin; rewrite !in_app_iff; auto).
  assert (Hcal : forall i, In i (map fst (calls log)) -> i < n) by (intros i Hi; apply Hcl; rewrite (j_flow _ _ _ H), map_app, in_app_iff; auto).
  assert (Hbig : forall i, acc (do_send s b) i = true -> (i < n /\ acc s i = true) \/ (i = n /\ b = true)).
  { intros i Hi. pose proof (acc_lt _ _ Hi) as Hl. rewrite Hlen in Hl. destruct (Nat.eq_dec i n) as [->|Hne]; [right; split; [reflexivity|congruence]|]. left. split; [lia|]. rewrite <- Hac by lia. exact Hi. }
  assert (Hperm : forall i, In i (map fst (comps log) ++ w_inq (do_send s b) ++ w_rej (do_send s b)) <-> In i (map fst (comps log) ++ w_inq s ++ w_rej s) \/ i = n).
  { intro i. destruct b; cbn [do_send w_inq w_rej]; fold n; rewrite !in_app_iff; cbn [In]; intuition. }
  constructor; rewrite ?Hlen.
  - exact (j_flow _ _ _ H).
  - destruct b; cbn [do_send w_inq w_rej]; fold n.
    + rewrite app_assoc in Hn. replace (map fst (comps log) ++ (w_inq s ++ [n]) ++ w_rej s) with ((map fst (comps log) ++ w_inq s) ++ n :: w_rej s) by (now rewrite <- !app_assoc). apply (NoDup_Add (Add_app n (map fst (comps log) ++ w_inq s) (w_rej s))).
      split; [rewrite <- app_assoc; apply (j_nodup _ _ _ H)|exact Hn].
    + replace (map fst (comps log) ++ w_inq s ++ w_rej s ++ [n]) with ((map fst (comps log) ++ w_inq s ++ w_rej s) ++ [n]) by (now rewrite <- !app_assoc).
      apply NoDup_snoc; [apply (j_nodup _ _ _ H)|exact Hn].
  - intro i. rewrite Hperm, <- (j_all _ _ _ H). fold n. lia.
  - rewrite (filter_acc_ext _ (acc s)) by (intros i Hi; apply Hac; auto). destruct b; cbn [do_send w_inq]; [|apply (j_sort _ _ _ H)]. fold n.
    rewrite app_assoc. apply sorted_snoc; [apply (j_sort _ _ _ H)|]. intros y Hy. apply in_app_iff in Hy as [Hy|Hy]; [|auto]. apply filter_In in Hy as [Hy _]. auto.
  - intros i Hi. cbn [do_send w_inq] in Hi. fold n in Hi. destruct b; [apply in_snoc in Hi as [Hi| ->]; [|exact Hnew]|]; rewrite Hac by auto; now apply (j_inq _ _ _ H).
  - intros i Hi. cbn [do_send w_rej] in Hi. fold n in Hi. destruct b; [|apply in_snoc in Hi as [Hi| ->]; [|exact Hnew]]; rewrite Hac by auto; now apply (j_rej _ _ _ H).
  - cbn [do_send w_active]. rewrite (j_active _ _ _ H). unfold runl. cbn [do_send w_loc w_cbs w_inq w_rej]. destruct b; rewrite !app_length; cbn [length]; lia.
  - cbn [do_send w_reader w_active Nat.eqb negb]. rewrite (j_reader _ _ _ H). destruct (Nat.eqb (w_active s) 0); reflexivity.
  - intros i x v Hx Hf. cbn [do_send w_sends] in Hx. apply nth_snoc in Hx as [Hx|[-> ->]]; [|discriminate]. now apply (j_res _ _ _ H i x).
  - intros i x Hx Hf. cbn [do_send w_sends] in Hx. apply nth_snoc in Hx as [Hx|[-> ->]]; [|discriminate]. apply in_snoc. left. now apply (j_can _ _ _ H i x).
  - intros i Hi. unfold fut_done. cbn [do_send w_sends]. rewrite nth_error_app1 by (fold n; auto). now apply (j_done _ _ _ H).
  - pose proof (j_last _ _ _ H) as Hl. cbn [do_send w_last]. fold n. destruct b.
    + split; [lia|]. split; [exact Hnew|]. intros i Hi. destruct (Hbig i Hi); lia.
    + destruct (w_last s) as [t|].
      * destruct Hl as (L1 & L2 & L3). fold n in L1. split; [lia|]. split; [rewrite Hac by lia; exact L2|]. intros i Hi. destruct (Hbig i Hi) as [[_ G]|[_ G]]; [auto|discriminate].
      * intros i Hi. destruct (Hbig i Hi) as [[_ G]|[_ G]]; [auto|discriminate].
  - exact (j_sem _ _ _ H).
  - cbn [do_send w_flushes]. eapply Forall_impl; [|apply (j_flush _ _ _ H)]. intros y [F1 F2]. split; [rewrite Hlen; fold n in F1; lia|]. fold n in F1.
    destruct (y_target y) as [t|].
    + destruct F2 as (G1 & G2 & G3 & G4). split; [exact G1|]. split; [rewrite Hac by lia; exact G2|]. split.
      * intros i Hi. rewrite Hac by lia. auto.
      * intro Hr. unfold fut_done. cbn [do_send w_sends]. rewrite nth_error_app1 by (fold n; lia). now apply G4.
    + intros i Hi. rewrite Hac by lia. auto.
  - cbn [do_send w_active]. lia.
Qed.

Lemma jinv_handler ls s log l i v inq rej :
  jinv ls s log ->
  ((w_inq s = i :: inq /\ rej = w_rej s) \/ (inq = w_inq s /\ In i (w_rej s) /\ rej = remove Nat.eq_dec i (w_rej s))) ->
  jinv (ls ++ [l]) (handler s inq rej i v) (log ++ [VComplete i v]).
Proof.
  intros H Hc.
  assert (Ha : forall x, acc (handler s inq rej i v) x = acc s x) by reflexivity.
  assert (Hcomp : comps (log ++ [VComplete i v]) = comps log ++ [(i, v)]) by (rewrite comps_app; reflexivity).
  assert (Hcall : calls (log ++ [VComplete i v]) = calls log) by (rewrite calls_app; apply app_nil_r).
  assert (Hfilt : filter (acc (handler s inq rej i v)) = filter (acc s)) by reflexivity.
  assert (Hlen : length inq + length rej + 1 = length (w_inq s) + length (w_rej s)).
  { destruct Hc as [[-> ->]|(-> & Hi & ->)]; cbn [length]; [lia|].
    assert (Hnd : NoDup (w_rej s)). { pose proof (j_nodup _ _ _ H) as G. rewrite app_assoc in G. revert G. generalize (map fst (comps log) ++ w_inq s). induction l0; cbn [app]; auto. intro G. inversion G; auto. }
    assert (length (remove Nat.eq_dec i (w_rej s)) + 1 = length (w_rej s)); [|lia]. clear -Hi Hnd. induction (w_rej s) as [|x r IH]; [destruct Hi|].
    inversion Hnd as [|? ? N1 N2]; subst. cbn [remove]. destruct (Nat.eq_dec i x) as [->|Hne].
    - rewrite notin_remove by exact N1. cbn [length]. lia.
    - destruct Hi as [->|Hi]; [congruence|]. cbn [length]. specialize (IH Hi N2). lia. }
  assert (Hin : forall x, In x (map fst (comps log) ++ w_inq s ++ w_rej s) <-> In x ((map fst (comps log) ++ [i]) ++ inq ++ rej)).
  { intro x. destruct Hc as [[-> ->]|(-> & Hi & ->)]; rewrite !in_app_iff; cbn [In].
    - intuition.
    - split.
      + intros [G|[G|G]]; auto. destruct (Nat.eq_dec i x) as [->|Hne]; [auto|]. right; right. apply in_in_remove; congruence.
      + intros [[G|[G|[]]]|[G|G]]; auto; [subst; auto|]. apply in_remove in G. tauto. }
  constructor; rewrite ?Hcomp, ?Hcall, ?Hfilt; cbn [handler w_sends w_active w_last w_reader w_flushes w_loc w_inq w_rej w_cbs w_sem w_puts].
  - rewrite (j_flow _ _ _ H), <- !app_assoc. reflexivity.
  - rewrite map_app. cbn [map fst]. pose proof (j_nodup _ _ _ H) as Hn. destruct Hc as [[Hq ->]|(-> & Hi & ->)].
    + rewrite Hq in Hn. rewrite <- app_assoc. exact Hn.
    + apply in_split in Hi as (r1 & r2 & Hr). rewrite Hr in Hn. rewrite Hr.
      assert (Hn' : ~ In i (map fst (comps log) ++ w_inq s ++ r1 ++ r2) /\ NoDup (map fst (comps log) ++ w_inq s ++ r1 ++ r2)).
      { rewrite !app_assoc in Hn |- *. apply NoDup_remove_mid in Hn. rewrite <- !app_assoc in Hn |- *. tauto. }
      destruct Hn' as [N1 N2].
      assert (Hrm : remove Nat.eq_dec i (r1 ++ i :: r2) = r1 ++ r2).
      { rewrite !in_app_iff in N1. rewrite remove_app, notin_remove by tauto. cbn [remove]. destruct (Nat.eq_dec i i); [|congruence]. rewrite notin_remove by tauto. reflexivity. }
      rewrite Hrm, <- app_assoc. cbn [app]. apply (NoDup_Add (Add_app i (map fst (comps log)) (w_inq s ++ r1 ++ r2))). auto.
  - intro x. rewrite (j_all _ _ _ H), Hin, map_app. reflexivity.
  - rewrite map_app, filter_app. cbn [map fst filter]. destruct Hc as [[Hq ->]|(-> & Hi & ->)].
    + rewrite (j_inq _ _ _ H i) by (rewrite Hq; now left). rewrite <- app_assoc. cbn [app]. rewrite <- Hq. apply (j_sort _ _ _ H).
    + rewrite (j_rej _ _ _ H i Hi), app_nil_r. apply (j_sort _ _ _ H).
  - intros x Hx. apply (j_inq _ _ _ H). destruct Hc as [[Hq _]|[Hq _]]; [rewrite Hq; now right|congruence].
  - intros x Hx. apply (j_rej _ _ _ H). destruct Hc as [[_ Hq]|(_ & _ & Hq)]; rewrite Hq in Hx; [exact Hx|]. apply in_remove in Hx. tauto.
  - rewrite (j_active _ _ _ H). unfold runl. cbn [handler w_loc]. rewrite !app_length. cbn [length]. lia.
  - exact (j_reader _ _ _ H).
  - exact (j_res _ _ _ H).
  - intros x y G1 G2. apply in_snoc. left. now apply (j_can _ _ _ H x y).
  - exact (j_done _ _ _ H).
  - exact (j_last _ _ _ H).
  - pose proof (j_sem _ _ _ H) as Hs. unfold in_swap in *. cbn [handler w_loc]. destruct (w_cbs s); cbn [nonempty b2n app] in *; lia.
  - eapply Forall_impl; [|apply (j_flush _ _ _ H)]. intros y F. unfold flush_ok in *. rewrite Hcall. exact F.
  - exact (j_loc _ _ _ H).
Qed.

(** Only the futures change. *)
Lemma jinv_calling ls s log i v r l : jinv ls s log -> w_loc s = LRun ((i, v) :: r) -> jinv (ls ++ [l]) (run_callback s i v r) (log ++ [VCall i v]).
Proof.
  intros H Hl.
  assert (Hrun : runl s = (i, v) :: r) by (unfold runl; now rewrite Hl).
  assert (Hcomp : comps (log ++ [VCall i v]) = comps log) by (rewrite comps_app; apply app_nil_r).
  assert (Hcall : calls (log ++ [VCall i v]) = calls log ++ [(i, v)]) by (rewrite calls_app; reflexivity).
  pose proof (j_flow _ _ _ H) as Hf. rewrite Hrun in Hf.
  assert (Hi : i < length (w_sends s)) by (apply (j_all _ _ _ H); rewrite Hf, map_app, !in_app_iff; left; right; now left).
  destruct (nth_error (w_sends s) i) as [x|] eqn:Ex; [|apply nth_error_None in Ex; lia].
  set (ss := w_sends (run_callback s i v r)).
  assert (Hss : ss = if sdone (x_fut x) then w_sends s else upd (w_sends s) i (set_xfut x (SRes v))) by (unfold ss; cbn [run_callback w_sends]; now rewrite Ex).
  assert (Hlen : length ss = length (w_sends s)) by (rewrite Hss; destruct (sdone _); [reflexivity|apply upd_length]).
  assert (Hnth : forall j y, nth_error ss j = Some y -> nth_error (w_sends s) j = Some y \/ (j = i /\ sdone (x_fut x) = false /\ y = set_xfut x (SRes v))).
  { intros j y. rewrite Hss. destruct (sdone (x_fut x)) eqn:Ed; [auto|]. rewrite nth_upd. destruct (Nat.eqb_spec j i) as [->|Hne]; [|auto].
    destruct (i <? length (w_sends s)); [|discriminate]. intros [= <-]. auto. }
  assert (Hacc : forall j, acc (run_callback s i v r) j = acc s j).
  { apply acc_same. fold ss. intro j. rewrite Hss. destruct (sdone (x_fut x)); [reflexivity|]. rewrite nth_upd. destruct (Nat.eqb_spec j i) as [->|Hne]; [|reflexivity].
    apply Nat.ltb_lt in Hi. rewrite Hi, Ex. reflexivity. }
  assert (Hdone : forall j, fut_done s j = true \/ j = i -> fut_done (run_callback s i v r) j = true).
  { intros j Hj. unfold fut_done. fold ss. rewrite Hss. destruct (sdone (x_fut x)) eqn:Ed.
    - destruct Hj as [Hj| ->]; [exact Hj|]. now rewrite Ex.
    - rewrite nth_upd. destruct (Nat.eqb_spec j i) as [->|Hne]; [apply Nat.ltb_lt in Hi; rewrite Hi; reflexivity|]. destruct Hj as [Hj|Hj]; [exact Hj|congruence]. }
  assert (Hact := j_active _ _ _ H). rewrite Hrun in Hact. cbn [app length] in Hact.
  constructor; rewrite ?Hcomp, ?Hcall; cbn [run_callback w_active w_last w_reader w_flushes w_loc w_inq w_rej w_cbs w_sem w_puts]; fold ss; rewrite ?Hlen.
  - rewrite Hf. unfold runl. cbn [run_callback w_loc]. rewrite <- !app_assoc. reflexivity.
  - exact (j_nodup _ _ _ H).
  - exact (j_all _ _ _ H).
  - rewrite (filter_acc_ext _ (acc s)) by (intros; apply Hacc). exact (j_sort _ _ _ H).
  - intros j Hj. rewrite Hacc. now apply (j_inq _ _ _ H).
  - intros j Hj. rewrite Hacc. now apply (j_rej _ _ _ H).
  - unfold runl. cbn [run_callback w_loc]. lia.
  - rewrite (j_reader _ _ _ H). destruct (Nat.eqb_spec (w_active s) 1) as [E1|E1].
    + rewrite E1. reflexivity.
    + destruct (Nat.eqb_spec (w_active s) 0), (Nat.eqb_spec (w_active s - 1) 0); try reflexivity; lia.
  - intros j y w Hy Hw. apply in_app_iff. destruct (Hnth j y Hy) as [G|(-> & _ & ->)]; [left; now apply (j_res _ _ _ H j y)|right]. cbn [set_xfut x_fut] in Hw. injection Hw as <-. now left.
  - intros j y Hy Hw. apply in_snoc. left. destruct (Hnth j y Hy) as [G|(-> & _ & ->)]; [now apply (j_can _ _ _ H j y)|discriminate].
  - intros j Hj. apply Hdone. rewrite map_app in Hj. apply in_snoc in Hj as [Hj|Hj]; [left; now apply (j_done _ _ _ H)|right; exact Hj].
  - pose proof (j_last _ _ _ H) as Hla.
    assert (Hnone : (forall j, acc s j = true -> In j (map fst (calls log))) -> forall j, acc (run_callback s i v r) j = true -> In j (map fst (calls log ++ [(i, v)]))).
    { intros G j Hj. rewrite Hacc in Hj. rewrite map_app, in_app_iff. auto. }
    destruct (Nat.eqb_spec (w_active s) 1) as [E1|E1].
    + intros j Hj. assert (Hr : r = [] /\ w_cbs s = [] /\ w_inq s = [] /\ w_rej s = []).
      { rewrite app_length in Hact. destruct r, (w_cbs s), (w_inq s), (w_rej s); cbn [length] in Hact; try lia. auto. }
      destruct Hr as (-> & Ec & Ei & Er). rewrite Hacc in Hj. apply acc_lt in Hj. apply (j_all _ _ _ H) in Hj. rewrite Ei, Er, app_nil_r in Hj. rewrite Hf, Ec in Hj. cbn [app] in Hj. rewrite ?app_nil_r in Hj. exact Hj.
    + destruct (w_last s) as [t|]; [|now apply Hnone]. destruct Hla as (L1 & L2 & L3). split; [exact L1|]. split; [now rewrite Hacc|]. intros j Hj. rewrite Hacc in Hj. auto.
  - pose proof (j_sem _ _ _ H) as Hs. unfold in_swap in *. rewrite Hl in Hs. exact Hs.
  - eapply Forall_impl; [|apply (j_flush _ _ _ H)]. intros y [F1 F2]. unfold flush_ok. fold ss. rewrite Hlen. split; [exact F1|]. destruct (y_target y) as [t|].
    + destruct F2 as (G1 & G2 & G3 & G4). split; [exact G1|]. split; [now rewrite Hacc|]. split; [intros j Hj Ha; rewrite Hacc in Ha; auto|]. intro Hr. apply Hdone. auto.
    + intros j Hj Ha. rewrite Hacc in Ha. rewrite Hcall, map_app, in_app_iff. auto.
  - intros [G|G]; discriminate.
Qed.

Lemma jinv_cancel ls s log i x : jinv ls s log -> nth_error (w_sends s) i = Some x ->
  jinv (ls ++ [WCancel i]) (with_sends s (if sdone (x_fut x) then w_sends s else upd (w_sends s) i (set_xfut x SCancel))) (log ++ []).
Proof.
  intros H Ex. rewrite app_nil_r. set (ss := if sdone (x_fut x) then w_sends s else upd (w_sends s) i (set_xfut x SCancel)).
  assert (Hi : i < length (w_sends s)) by (apply nth_error_Some; congruence).
  assert (Hlen : length ss = length (w_sends s)) by (unfold ss; destruct (sdone _); [reflexivity|apply upd_length]).
  assert (Hnth : forall j y, nth_error ss j = Some y -> nth_error (w_sends s) j = Some y \/ (j = i /\ sdone (x_fut x) = false /\ y = set_xfut x SCancel)).
  { intros j y. unfold ss. destruct (sdone (x_fut x)) eqn:Ed; [auto|]. rewrite nth_upd. destruct (Nat.eqb_spec j i) as [->|Hne]; [|auto].
    destruct (i <? length (w_sends s)); [|discriminate]. intros [= <-]. auto. }
  assert (Hacc : forall j, acc (with_sends s ss) j = acc s j).
  { apply acc_same. cbn [with_sends w_sends]. intro j. unfold ss. destruct (sdone (x_fut x)); [reflexivity|]. rewrite nth_upd. destruct (Nat.eqb_spec j i) as [->|Hne]; [|reflexivity].
    apply Nat.ltb_lt in Hi. rewrite Hi, Ex. reflexivity. }
  assert (Hdone : forall j, fut_done s j = true -> fut_done (with_sends s ss) j = true).
  { intros j Hj. unfold fut_done. cbn [with_sends w_sends]. unfold ss. destruct (sdone (x_fut x)) eqn:Ed; [exact Hj|].
    rewrite nth_upd. destruct (Nat.eqb_spec j i) as [->|Hne]; [apply Nat.ltb_lt in Hi; rewrite Hi; reflexivity|exact Hj]. }
  constructor; cbn [with_sends w_sends w_active w_last w_reader w_flushes w_loc w_inq w_rej w_cbs w_sem w_puts]; rewrite ?Hlen; try (now destruct H).
  - rewrite (filter_acc_ext _ (acc s)) by (intros; apply Hacc). exact (j_sort _ _ _ H).
  - intros j Hj. rewrite Hacc. now apply (j_inq _ _ _ H).
  - intros j Hj. rewrite Hacc. now apply (j_rej _ _ _ H).
  - intros j y w Hy Hw. destruct (Hnth j y Hy) as [G|(-> & _ & ->)]; [now apply (j_res _ _ _ H j y)|discriminate].
  - intros j y Hy Hw. apply in_snoc. destruct (Hnth j y Hy) as [G|(-> & _ & ->)]; [left; now apply (j_can _ _ _ H j y)|now right].
  - intros j Hj. apply Hdone. now apply (j_done _ _ _ H).
  - pose proof (j_last _ _ _ H) as Hla. destruct (w_last s) as [t|].
    + destruct Hla as (L1 & L2 & L3). split; [exact L1|]. split; [now rewrite Hacc|]. intros j Hj. rewrite Hacc in Hj. auto.
    + intros j Hj. rewrite Hacc in Hj. auto.
  - eapply Forall_impl; [|apply (j_flush _ _ _ H)]. intros y [F1 F2]. unfold flush_ok. cbn [with_sends w_sends]. rewrite Hlen. split; [exact F1|]. destruct (y_target y) as [t|].
    + destruct F2 as (G1 & G2 & G3 & G4). split; [exact G1|]. split; [now rewrite Hacc|]. split; [intros j Hj Ha; rewrite Hacc in Ha; auto|]. intro Hr. apply Hdone. auto.
    + intros j Hj Ha. rewrite Hacc in Ha. auto.
Qed.

Lemma jinv_flushes ls s log l fs : jinv ls s log -> Forall (flush_ok s log) fs -> jinv (ls ++ [l]) (with_flushes s fs) (log ++ []).
Proof.
  intros H Hf. rewrite app_nil_r. constructor; cbn [with_flushes w_sends w_active w_last w_reader w_flushes w_loc w_inq w_rej w_cbs w_sem w_puts]; try (now destruct H).
  intros j y Hy Hw. apply in_snoc. left. now apply (j_can _ _ _ H j y).
Qed.

Lemma jinv_step ls s log l s' e : jinv ls s log -> sstep s l = Some (s', e) -> jinv (ls ++ [l]) s' (log ++ e).
Proof.
  intros H Hs. destruct l as [b|v|i v| | | | | |i| |j]; cbn [sstep] in Hs.
  - destruct (w_loc s) eqn:El; try discriminate. injection Hs as <- <-. now apply jinv_send.
  - destruct (w_inq s) as [|i q] eqn:Eq; [discriminate|]. injection Hs as <- <-. apply jinv_handler; [exact H|]. auto.
  - destruct (existsb (Nat.eqb i) (w_rej s)) eqn:Ee; [|discriminate]. injection Hs as <- <-. apply jinv_handler; [exact H|]. right.
    apply existsb_exists in Ee as (x & Hx & Hq). apply Nat.eqb_eq in Hq. subst x. auto.
  - destruct (w_puts s) as [|n] eqn:Ep; [discriminate|]. injection Hs as <- <-. pose proof (j_sem _ _ _ H) as G. unfold in_swap in G. rewrite Ep in G.
    apply jinv_loc; auto; [lia|]. apply (j_loc _ _ _ H).
  - destruct (w_loc s) eqn:El; try discriminate. destruct (w_reader s) eqn:Er; [|discriminate]. injection Hs as <- <-.
    pose proof (j_sem _ _ _ H) as G. unfold in_swap in G. rewrite El in G. apply jinv_loc; auto; [unfold runl; now rewrite El|].
    intros _ E0. rewrite (j_reader _ _ _ H), E0 in Er. discriminate.
  - destruct (w_loc s) eqn:El; try discriminate. destruct (w_sem s) as [|n] eqn:Ep; [discriminate|]. injection Hs as <- <-.
    pose proof (j_sem _ _ _ H) as G. unfold in_swap in G. rewrite El, Ep in G. apply jinv_loc; auto; [unfold runl; now rewrite El|cbn [b2n] in *; lia|].
    intros _. apply (j_loc _ _ _ H). auto.
  - destruct (w_loc s) eqn:El; try discriminate. injection Hs as <- <-. pose proof (j_sem _ _ _ H) as G. unfold in_swap in G. rewrite El in G.
    assert (Hrun : runl s = []) by (unfold runl; now rewrite El).
    apply jinv_loc; auto; [rewrite Hrun; apply app_nil_r| |intros [?|?]; discriminate].
    destruct (w_cbs s); cbn [nonempty b2n] in *; lia.
  - destruct (w_loc s) as [| | |[|[i v] r]] eqn:El; try discriminate; injection Hs as <- <-.
    + pose proof (j_sem _ _ _ H) as G. unfold in_swap in G. rewrite El in G. apply jinv_loc; auto; [unfold runl; now rewrite El|]. intros [?|?]; discriminate.
    + now apply jinv_calling.
  - destruct (is_idle _); [|discriminate]. destruct (nth_error (w_sends s) i) as [x|] eqn:Ex; [|discriminate]. injection Hs as <- <-. now apply jinv_cancel.
  - destruct (is_idle _); [|discriminate]. injection Hs as <- <-. apply jinv_flushes; [exact H|]. apply Forall_app. split; [apply (j_flush _ _ _ H)|]. constructor; [|constructor].
    split; [cbn [y_before]; lia|]. cbn [y_target y_before y_ret]. pose proof (j_last _ _ _ H) as G. destruct (w_last s) as [t|].
    + destruct G as (L1 & L2 & L3). repeat split; auto. discriminate.
    + auto.
  - destruct (is_idle _); [|discriminate]. destruct (nth_error (w_flushes s) j) as [y|] eqn:Ey; [|discriminate]. destruct (y_target y) as [t|] eqn:Et; [|discriminate].
    destruct (negb (y_ret y) && fut_done s t) eqn:Ed; [|discriminate]. injection Hs as <- <-. apply andb_true_iff in Ed as [_ Ed]. apply jinv_flushes; [exact H|].
    apply Forall_upd; [apply (j_flush _ _ _ H)|]. pose proof (j_flush _ _ _ H) as G. rewrite Forall_forall in G. specialize (G y (nth_error_In _ _ Ey)).
    unfold flush_ok in *. cbn [y_target y_before y_ret]. rewrite Et in *. tauto.
Qed.

Lemma jinv_run ls s log ls' s' log' : jinv ls s log -> srun s ls' = Some (s', log') -> jinv (ls ++ ls') s' (log ++ log').
Proof.
  revert ls s log log'. induction ls' as [|l ls' IH]; intros ls s log log' H Hr; cbn [srun] in Hr.
  - injection Hr as <- <-. now rewrite !app_nil_r.
  - destruct (sstep s l) as [[s1 e]|] eqn:Es; [|discriminate]. destruct (srun s1 ls') as [[s2 es]|] eqn:Er; [|discriminate]. injection Hr as <- <-.
    assert (G := IH _ _ _ _ (jinv_step _ _ _ _ _ _ H Es) Er). now rewrite <- !app_assoc in G.
Qed.
Lemma jinv_reach ls s log : srun asw_init ls = Some (s, log) -> jinv ls s log.
Proof. intro H. exact (jinv_run [] asw_init [] ls s log jinv_init H). Qed.

(** ** Work left *)
Definition w_loc_work (l : lloc) : nat := match l with LIdle => 3 | LGet => 2 | LSwap => 1 | LRun _ => 4 end.
Definition swork (s : asw) : nat :=
  12 * (length (w_inq s) + length (w_rej s)) + 10 * length (w_cbs s) + 2 * length (runl s) + w_puts s + w_loc_work (w_loc s).
(** Steps of the threads and of the loop in [process_callbacks]. *)
Definition own_lab (l : slab) : bool :=
  match l with WComplete _ | WReject _ _ | WPut | WReady | WGet | WSwap | WCall => true | _ => false end.
Lemma remove_length i l : In i l -> S (length (remove Nat.eq_dec i l)) <= length l.
Proof. intro H. pose proof (remove_length_lt Nat.eq_dec l i H). lia. Qed.
Lemma own_progress ls s log l s' e : jinv ls s log -> own_lab l = true -> sstep s l = Some (s', e) -> swork s' < swork s.
Proof.
  intros H Ho Hs. destruct l as [b|v|i v| | | | | |i| |j]; try discriminate Ho; cbn [sstep] in Hs; unfold swork.
  - destruct (w_inq s) as [|i q] eqn:Eq; [discriminate|]. injection Hs as <- <-. unfold runl. cbn [handler w_inq w_rej w_cbs w_puts w_loc]. rewrite app_length. cbn [length]. destruct (w_cbs s); cbn [length]; lia.
  - destruct (existsb (Nat.eqb i) (w_rej s)) eqn:Ee; [|discriminate]. injection Hs as <- <-. apply existsb_exists in Ee as (x & Hx & Hq). apply Nat.eqb_eq in Hq. subst x.
    apply remove_length in Hx. unfold runl. cbn [handler w_inq w_rej w_cbs w_puts w_loc]. rewrite app_length. cbn [length]. destruct (w_cbs s); cbn [length]; lia.
  - destruct (w_puts s) as [|n] eqn:Ep; [discriminate|]. injection Hs as <- <-. unfold runl. cbn [with_loc w_inq w_rej w_cbs w_puts w_loc]. lia.
  - destruct (w_loc s) eqn:El; try discriminate. destruct (w_reader s) eqn:Er; [|discriminate]. injection Hs as <- <-. unfold runl. cbn [with_loc w_inq w_rej w_cbs w_puts w_loc w_loc_work]. rewrite El. lia.
  - destruct (w_loc s) eqn:El; try discriminate. destruct (w_sem s) as [|n] eqn:Ep; [discriminate|]. injection Hs as <- <-. unfold runl. cbn [with_loc w_inq w_rej w_cbs w_puts w_loc w_loc_work]. rewrite El. lia.
  - destruct (w_loc s) eqn:El; try discriminate. injection Hs as <- <-. pose proof (j_sem _ _ _ H) as G. unfold in_swap in G. rewrite El in G.
    unfold runl. cbn [with_loc w_inq w_rej w_cbs w_puts w_loc w_loc_work]. rewrite El. destruct (w_cbs s); cbn [nonempty b2n length] in *; lia.
  - destruct (w_loc s) as [| | |[|[i v] r]] eqn:El; try discriminate; injection Hs as <- <-; unfold runl; cbn [with_loc run_callback w_inq w_rej w_cbs w_puts w_loc w_loc_work]; rewrite El; cbn [length]; lia.
Qed.
Lemma own_bound ls s log ls' s' log' : jinv ls s log -> forallb own_lab ls' = true -> srun s ls' = Some (s', log') -> length ls' <= swork s.
Proof.
  revert ls s log log'. induction ls' as [|l ls' IH]; intros ls s log log' H Ho Hr; cbn [length]; [lia|]. cbn [forallb] in Ho. apply andb_true_iff in Ho as [Ho Ho']. cbn [srun] in Hr.
  destruct (sstep s l) as [[s1 e]|] eqn:Es; [|discriminate]. destruct (srun s1 ls') as [[s2 es]|] eqn:Er; [|discriminate]. injection Hr as -> _.
  pose proof (own_progress _ _ _ _ _ _ H Ho Es). pose proof (IH _ _ _ _ (jinv_step _ _ _ _ _ _ H Es) Ho' Er). lia.
Qed.
