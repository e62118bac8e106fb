(** C78: the tools send each heap once. *)
From Coq Require Import List Bool Arith Lia Permutation.
From Verif Require Import ToolSendModel.
Import ListNotations.

(** Not more in flight than heaps, and at least one. *)
Definition tool_ok (t : tool) : Prop := 1 <= t_max t /\ 1 <= t_sub t /\ match t_n t with Some k => t_max t <= k + t_sub t | None => True end.
Lemma send_ok want sub n : 1 <= want -> 1 <= sub -> tool_ok (send_tool want sub n).
Proof. intros A B. unfold tool_ok, send_tool. destruct n as [k|]; cbn [t_max t_sub t_n]; [|lia]. destruct (Nat.ltb_spec want (k + sub)); lia. Qed.
Lemma bench_ok want k : 1 <= want -> tool_ok (bench_tool want k).
Proof. intros A. unfold tool_ok, bench_tool. cbn. lia. Qed.

Section Tool.
Context (t : tool) (Ok : tool_ok t).
Let m := t_max t.

(** Which heaps were sent: all indices that are reached from the first ones. *)
Record tinv (s : tstate) (c : nat) : Prop := {
  i_nodup : NoDup (s_sent s);
  i_fly : exists gone, Permutation (s_sent s) (gone ++ s_fly s) /\ length gone = c /\ (s_err s = false -> forall i, In i gone -> within t (i + m) = true -> In (i + m) (s_sent s));
  i_count : length (s_fly s) + s_done s = m;
  i_within : Forall (fun i => within t i = true) (s_sent s);
  i_slots : NoDup (map (slot t) (s_fly s));
  i_down : forall i, In (i + m) (s_sent s) -> In i (s_sent s);
  i_next : forall i, In i (s_fly s) -> ~ In (i + m) (s_sent s);
  i_first : incl (seq 0 m) (s_sent s) }.

Lemma m_pos : 1 <= m.
Proof. exact (proj1 Ok). Qed.
Lemma slot_add i : slot t (i + m) = slot t i.
Proof. unfold slot. fold m. rewrite <- (Nat.mul_1_l m) at 1. apply Nat.mod_add. pose proof m_pos. lia. Qed.

Lemma start_inv : tinv (tool_start t) 0.
Proof.
  pose proof m_pos as Hm. constructor; cbn [tool_start s_fly s_sent s_done s_err]; fold m.
  - apply seq_NoDup.
  - exists []. split; [apply Permutation_refl|split; [reflexivity|intros _ i []]].
  - rewrite seq_length. lia.
  - apply Forall_forall. intros i Hi. apply in_seq in Hi. unfold within. destruct (t_n t) as [k|] eqn:E; [|reflexivity]. apply Nat.ltb_lt. destruct Ok as (_ & _ & X). rewrite E in X. fold m in X. lia.
  - replace (map (slot t) (seq 0 m)) with (seq 0 m); [apply seq_NoDup|]. rewrite <- (map_id (seq 0 m)) at 1. apply map_ext_in. intros i Hi. apply in_seq in Hi. unfold slot. fold m. rewrite Nat.mod_small; lia.
  - intros i Hi. apply in_seq in Hi. lia.
  - intros i Hi H. apply in_seq in H. lia.
  - apply incl_refl.
Qed.

Lemma split_nth (l : list nat) j x : nth_error l j = Some x -> l = firstn j l ++ x :: skipn (S j) l.
Proof. revert j. induction l as [|a l IH]; intros [|j] E; try discriminate; cbn in *; [now injection E as ->|]. f_equal. auto. Qed.

Lemma step_inv s c j ok s' : tinv s c -> callback t s j ok = Some s' -> tinv s' (S c).
Proof.
  intros I E. destruct I as [I1 (gone & I2 & I3 & I3') I4 I5 I6 I7 I8 I9]. unfold callback in E. destruct (nth_error (s_fly s) j) as [idx|] eqn:J; [|discriminate]. pose proof (split_nth _ _ _ J) as Fl.
  set (rest := firstn j (s_fly s) ++ skipn (S j) (s_fly s)) in *. fold m in E.
  assert (Pf : Permutation (s_fly s) (idx :: rest)) by (rewrite Fl at 1; symmetry; apply Permutation_middle).
  assert (Lf : length (s_fly s) = S (length rest)) by (rewrite (Permutation_length Pf); reflexivity).
  assert (Hidx : In idx (s_fly s)) by (eapply nth_error_In; eauto).
  assert (Hsent : In idx (s_sent s)) by (eapply Permutation_in; [symmetry; exact I2|]; apply in_or_app; auto).
  assert (Ps : Permutation (s_sent s) ((idx :: gone) ++ rest)) by (rewrite I2, Pf; symmetry; apply Permutation_middle).
  assert (Sr : NoDup (slot t idx :: map (slot t) rest)) by (exact (Permutation_NoDup (Permutation_map (slot t) Pf) I6)).
  assert (Nx : forall i, In i rest -> ~ In (i + m) (s_sent s)) by (intros i Hi; apply I8; eapply Permutation_in; [symmetry; exact Pf|]; now right).
  pose proof m_pos as Hm. destruct (negb (s_err s || negb ok) && within t (idx + m)) eqn:B; injection E as <-.
  - apply andb_true_iff in B as [B1 B2]. apply negb_true_iff, orb_false_iff in B1 as [B0 B1].
    constructor; cbn [s_fly s_sent s_done s_err].
    + apply (Permutation_NoDup (l := (idx + m) :: s_sent s)); [apply Permutation_cons_append|]. constructor; [now apply I8|exact I1].
    + exists (idx :: gone). split; [rewrite app_assoc; apply Permutation_app_tail; exact Ps|]. split; [cbn; lia|]. intros _ i [<-|Hi] W; [apply in_or_app; right; now left|]. apply in_or_app. left. now apply I3'.
    + rewrite app_length. cbn. lia.
    + apply Forall_app. auto.
    + rewrite map_app. cbn [map]. rewrite slot_add. eapply Permutation_NoDup; [apply Permutation_cons_append|]. exact Sr.
    + intros i Hi. apply in_app_iff in Hi as [Hi|[Hi|[]]]; apply in_or_app; left; [auto|]. assert (i = idx) by lia. congruence.
    + intros i Hi H. apply in_app_iff in Hi as [Hi|[Hi|[]]].
      * apply in_app_iff in H as [H|[H|[]]]; [now apply (Nx i)|]. assert (i = idx) by lia. subst i. inversion Sr as [|? ? X _]; subst. apply X, in_map, Hi.
      * subst i. apply in_app_iff in H as [H|[H|[]]]; [|lia]. apply I7 in H. now apply (I8 idx).
    + intros i Hi. apply in_or_app. left. auto.
  - constructor; cbn [s_fly s_sent s_done s_err]; auto.
    + exists (idx :: gone). split; [exact Ps|]. split; [cbn; lia|]. intros Er i [<-|Hi] W; [|apply I3'; auto; destruct (s_err s); [discriminate|reflexivity]].
      rewrite Er in B. cbn in B. congruence.
    + lia.
    + now inversion Sr.
Qed.
Lemma run_inv cs : forall s c s', tinv s c -> tool_run t s cs = Some s' -> tinv s' (c + length cs).
Proof.
  induction cs as [|[j ok] cs IH]; intros s c s' I E; cbn [tool_run] in E; [injection E as <-; now rewrite Nat.add_0_r|]. destruct (callback t s j ok) as [s1|] eqn:C; [|discriminate]. cbn [length]. rewrite Nat.add_succ_r. apply (IH s1 (S c) s'); [eapply step_inv; eauto|exact E].
Qed.

(** Whatever the order of the completions, with or without errors: no heap is sent twice
    or beyond the last; at most [t_max] are in flight, and no two of them share their
    buffers; [run] returns exactly when nothing is in flight. *)
Theorem C78_safe : forall cs s, tool_run t (tool_start t) cs = Some s ->
  NoDup (s_sent s) /\ Forall (fun i => within t i = true) (s_sent s) /\ length (s_fly s) <= m /\
  NoDup (map (slot t) (s_fly s)) /\ (run_returns t s = true <-> s_fly s = []).
Proof.
  intros cs s E. pose proof (run_inv cs _ _ _ start_inv E) as [I1 _ I4 I5 I6 _ _ _]. repeat split; auto; try lia.
  - unfold run_returns. fold m. intro H. apply Nat.leb_le in H. apply length_zero_iff_nil. lia.
  - unfold run_returns. fold m. intro H. rewrite H in I4. apply Nat.leb_le. cbn [length] in I4. lia.
Qed.

(** [run] returns after as many completions as heaps were sent; if there was no error, all
    heaps were sent. *)
Theorem C78_all : forall cs s k, t_n t = Some k -> tool_run t (tool_start t) cs = Some s ->
  length cs <= k + t_sub t /\
  (run_returns t s = true -> length cs = length (s_sent s)) /\
  (run_returns t s = true -> s_err s = false -> Permutation (s_sent s) (seq 0 (k + t_sub t))).
Proof.
  intros cs s k K E. pose proof (run_inv cs _ _ _ start_inv E) as [I1 (gone & I2 & I3 & I3') I4 I5 I6 I7 I8 I9]. cbn [Nat.add] in I3.
  assert (W : forall i, within t i = true <-> i < k + t_sub t) by (intro i; unfold within; rewrite K; apply Nat.ltb_lt).
  assert (Incl : incl (s_sent s) (seq 0 (k + t_sub t))) by (intros i Hi; apply in_seq; rewrite Forall_forall in I5; apply I5 in Hi; apply W in Hi; lia).
  pose proof (NoDup_incl_length I1 Incl) as L. rewrite seq_length in L. pose proof (Permutation_length I2) as L2. rewrite app_length in L2.
  assert (Z0 : run_returns t s = true -> s_fly s = []) by (apply (C78_safe cs s E)). split; [lia|]. split; [intro R; rewrite (Z0 R) in L2; cbn in L2; lia|]. intros R Er.
  rewrite (Z0 R), app_nil_r in I2. apply NoDup_Permutation; [exact I1|apply seq_NoDup|]. intro i. split; [apply Incl|]. intro Hi. apply in_seq in Hi as [_ Hi]. cbn [Nat.add] in Hi. pose proof m_pos as Hm.
  induction i as [i IH] using lt_wf_ind. destruct (Nat.lt_ge_cases i m) as [Lt|Ge]; [apply I9, in_seq; lia|]. replace i with ((i - m) + m) by lia. apply I3'; [exact Er| |apply W; lia]. eapply Permutation_in; [exact I2|]. apply IH; lia.
Qed.

(** If heaps complete in the order in which they were sent, without errors, they are sent
    in the order of their indices. *)
Theorem C78_order : forall c s, tool_run t (tool_start t) (repeat (0, true) c) = Some s -> s_sent s = seq 0 (length (s_sent s)) /\ exists a, s_fly s = seq a (length (s_fly s)).
Proof.
  assert (G : forall c s, tool_run t (tool_start t) (repeat (0, true) c) = Some s ->
    s_sent s = seq 0 (length (s_sent s)) /\ s_fly s = seq c (length (s_fly s)) /\ s_err s = false /\ length (s_sent s) = c + length (s_fly s) /\ (length (s_fly s) < m -> within t (c + m - 1) = false)).
  2: { intros c s E. destruct (G c s E) as (A & B & _). split; [exact A|]. exists c. exact B. }
  pose proof m_pos as Hm. assert (Mono : forall a b, a <= b -> within t a = false -> within t b = false) by (intros a b H; unfold within; destruct (t_n t); [|discriminate]; rewrite !Nat.ltb_ge; lia).
  induction c as [|c IH]; intros s E.
  - cbn [repeat tool_run] in E. injection E as <-. cbn [tool_start s_sent s_fly s_err]. fold m. rewrite seq_length. repeat split. lia.
  - replace (repeat (0, true) (S c)) with (repeat (0, true) c ++ [(0, true)]) in E by (rewrite <- repeat_cons; reflexivity).
    assert (Ap : forall l s0, tool_run t s0 (l ++ [(0, true)]) = match tool_run t s0 l with Some s1 => callback t s1 0 true | None => None end).
    { induction l as [|[j ok] l IHl]; intro s0; cbn [app tool_run]; [destruct (callback t s0 0 true); reflexivity|]. destruct (callback t s0 j ok); auto. }
    rewrite Ap in E. destruct (tool_run t (tool_start t) (repeat (0, true) c)) as [s1|] eqn:E1; [|discriminate]. destruct (IH s1 eq_refl) as (A & B & Er & L & S0).
    unfold callback in E. destruct (s_fly s1) as [|i f] eqn:F; [discriminate|]. cbn [nth_error firstn skipn app] in E. cbn [length seq] in B. injection B as -> B. rewrite Er in E. cbn [orb negb andb] in E. fold m in E. cbn [length] in L, S0.
    destruct (within t (c + m)) eqn:W; injection E as <-; cbn [s_sent s_fly s_err s_done].
    + assert (Lf : length f = m - 1). { destruct (Nat.lt_ge_cases (S (length f)) m) as [Lt|Ge]; [|pose proof (run_inv _ _ _ _ start_inv E1) as I; pose proof (i_count _ _ I) as X; rewrite F in X; cbn [length] in X; lia].
        specialize (S0 Lt). apply (Mono _ (c + m)) in S0; [congruence|lia]. }
      rewrite !app_length. cbn [length]. split; [|split; [|split; [reflexivity|split; [lia|lia]]]].
      * rewrite Nat.add_1_r, seq_S, <- A. cbn [Nat.add]. f_equal. f_equal. lia.
      * rewrite Nat.add_1_r, seq_S, <- B. f_equal. f_equal. lia.
    + split; [exact A|]. split; [exact B|]. split; [reflexivity|]. split; [lia|]. intros _. replace (S c + m - 1) with (c + m) by lia. exact W.
Qed.
End Tool.
Print Assumptions C78_safe.
Print Assumptions C78_all.
Print Assumptions C78_order.

(** Each destination of spead2_send gets its descriptors first and its end last, if there
    are at least as many heaps as destinations. *)
Theorem C78_destinations : forall want sub k d, d < sub -> sub <= k -> let t := send_tool want sub (Some k) in
  (heap_kind t d = First /\ substream t d = d) /\
  exists e, substream t e = d /\ heap_kind t e = Last /\ within t e = true /\
    (forall i, substream t i = d -> within t i = true -> d <= i <= e /\ (heap_kind t i = First -> i = d) /\ (heap_kind t i = Last -> i = e)).
Proof.
  intros want sub k d Hd Hk t. unfold substream, heap_kind, within. cbn [t t_sub t_n send_tool]. assert (Hs : sub <> 0) by lia.
  split; [split; [destruct (Nat.ltb_spec d sub); [reflexivity|lia]|now apply Nat.mod_small]|].
  set (r := (k + sub - 1 - d) / sub). exists (d + r * sub).
  pose proof (Nat.div_mod (k + sub - 1 - d) sub Hs) as D. pose proof (Nat.mod_upper_bound (k + sub - 1 - d) sub Hs) as U. fold r in D. rewrite (Nat.mul_comm sub r) in D.
  assert (R1 : 1 <= r) by (destruct r; [cbn in D; lia|lia]). assert (sub <= r * sub) by (destruct r; [lia|cbn; lia]).
  split; [rewrite Nat.mod_add by exact Hs; now apply Nat.mod_small|]. split; [destruct (Nat.ltb_spec (d + r * sub) sub); [lia|]; destruct (Nat.leb_spec k (d + r * sub)); [reflexivity|lia]|]. split; [apply Nat.ltb_lt; lia|].
  intros i Hi Hw. apply Nat.ltb_lt in Hw. pose proof (Nat.div_mod i sub Hs) as Di. rewrite Hi in Di. set (q := i / sub) in *. rewrite (Nat.mul_comm sub q) in Di.
  assert (Q : q <= r). { destruct (Nat.le_gt_cases q r); [auto|]. assert (S r * sub <= q * sub) by (apply Nat.mul_le_mono_r; lia). cbn in *. lia. }
  assert (q * sub <= r * sub) by (apply Nat.mul_le_mono_r; exact Q). split; [lia|]. split.
  - destruct (Nat.ltb_spec i sub); [intros _|destruct (k <=? i); discriminate]. destruct q; [lia|]. cbn in Di. lia.
  - destruct (Nat.ltb_spec i sub); [discriminate|]. destruct (Nat.leb_spec k i); [intros _|discriminate]. destruct (Nat.eq_dec q r) as [Eq|]; [rewrite Eq in Di; lia|]. assert (S q * sub <= r * sub) by (apply Nat.mul_le_mono_r; lia). cbn in *. lia.
Qed.
Print Assumptions C78_destinations.

(** F51: with fewer heaps than destinations (also with none at all) more heaps are sent than
    asked for, and the last destination never gets the end of its stream. *)
Theorem C78_few_refuted : forall want sub k, k < sub -> let t := send_tool want sub (Some k) in
  (forall i, i < sub -> within t i = true /\ heap_kind t i = First) /\
  forall i, within t i = true -> substream t i = sub - 1 -> heap_kind t i <> Last.
Proof.
  intros want sub k Hk t. unfold substream, heap_kind, within. cbn [t t_sub t_n send_tool]. split.
  - intros i Hi. split; [apply Nat.ltb_lt; lia|]. destruct (Nat.ltb_spec i sub); [reflexivity|lia].
  - intros i W Hs. apply Nat.ltb_lt in W. destruct (Nat.ltb_spec i sub) as [|G]; [discriminate|]. exfalso.
    assert (sub <> 0) by lia. pose proof (Nat.div_mod i sub H) as D. rewrite Hs in D. assert (Q : 1 <= i / sub) by (apply Nat.div_le_lower_bound; lia). assert (sub * 1 <= sub * (i / sub)) by (apply Nat.mul_le_mono_l; exact Q). lia.
Qed.
Print Assumptions C78_few_refuted.

(** Three in flight, two destinations, five heaps; in order, and out of order with an
    error. *)
Definition ex_t : tool := send_tool 3 2 (Some 5).
Example C78_ex : tool_ok ex_t /\
  tool_run ex_t (tool_start ex_t) (repeat (0, true) 7) = Some {| s_fly := []; s_sent := [0; 1; 2; 3; 4; 5; 6]; s_done := 3; s_err := false |} /\
  tool_run ex_t (tool_start ex_t) [(1, true); (2, true); (0, true); (1, true); (1, true); (0, true); (0, true)] = Some {| s_fly := []; s_sent := [0; 1; 2; 4; 3; 6; 5]; s_done := 3; s_err := false |} /\
  tool_run ex_t (tool_start ex_t) [(1, true); (2, false); (0, true); (0, true)] = Some {| s_fly := []; s_sent := [0; 1; 2; 4]; s_done := 3; s_err := true |} /\
  map (fun i => (substream ex_t i, heap_kind ex_t i)) (seq 0 7) = [(0, First); (1, First); (0, Data); (1, Data); (0, Data); (1, Last); (0, Last)].
Proof. split; [apply send_ok; lia|]. repeat split. Qed.
(** One heap for two destinations: the second one gets a heap and no end. *)
Example C78_few_ex : let t := send_tool 4 2 (Some 1) in
  tool_run t (tool_start t) (repeat (0, true) 3) = Some {| s_fly := []; s_sent := [0; 1; 2]; s_done := 3; s_err := false |} /\
  map (fun i => (substream t i, heap_kind t i)) [0; 1; 2] = [(0, First); (1, First); (0, Last)].
Proof. split; reflexivity. Qed.
