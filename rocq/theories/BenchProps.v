(** C79: the benchmark reports a rate that was sustained, and ends. *)
From Coq Require Import QArith List Bool Lia Lqa.
From Verif Require Import BenchModel.
Import ListNotations.
Open Scope Q_scope.

(** All passes got enough heaps. *)
Definition sustained (ps : list pass) : Prop := forall p, In p ps -> fst p = true.
Lemma measure_good ps : fst (measure ps) = true <-> sustained ps.
Proof. unfold measure, sustained. cbn. rewrite forallb_forall. tauto. Qed.
(** The last round that was sustained. *)
Definition last_good (pss : list (list pass)) : option (list pass) := find (fun ps => forallb fst ps) (rev pss).
Definition half (n : nat) : Q := / inject_Z (2 ^ Z.of_nat n).

Lemma half_S n : half (S n) == half n * (1 # 2).
Proof.
  unfold half. rewrite Nat2Z.inj_succ, Z.pow_succ_r by lia. rewrite inject_Z_mult. field. intro H. assert (X : (0 < 2 ^ Z.of_nat n)%Z) by (apply Z.pow_pos_nonneg; lia). rewrite Zlt_Qlt in X. rewrite H in X. now apply Qlt_irrefl in X.
Qed.
Lemma half_0 : half 0 == 1.
Proof. reflexivity. Qed.
Lemma half_pos n : 0 < half n.
Proof. unfold half. apply Qinv_lt_0_compat. change 0 with (inject_Z 0). rewrite <- Zlt_Qlt. apply Z.pow_pos_nonneg; lia. Qed.

Lemma rounds_snoc pss : forall s ps, rounds s (pss ++ [ps]) = match rounds s pss with Some (s', rs) => if goes_on s' then Some (round s' ps, rs ++ [rate s']) else None | None => None end.
Proof.
  induction pss as [|a pss IH]; intros s ps; cbn [app rounds]; [destruct (goes_on s); reflexivity|]. destruct (goes_on s); [|reflexivity]. rewrite IH. destruct (rounds (round s a) pss) as [[s' rs]|]; [|reflexivity]. destruct (goes_on s'); reflexivity.
Qed.

(** The bounds of the search: the interval is halved by each round; its lower end was
    sustained (or is 0), its upper end was not (or is the rate sent at full speed); the
    result is what was measured in the last round that was sustained. *)
Theorem C79_search : forall H pss s rs, 0 < H -> rounds {| low := 0; high := H; best := 0 |} pss = Some (s, rs) ->
  length rs = length pss /\ high s - low s == H * half (length pss) /\ 0 <= low s /\ low s < high s /\ high s <= H /\
  (low s = 0 \/ exists i ps, nth_error rs i = Some (low s) /\ nth_error pss i = Some ps /\ sustained ps) /\
  (high s = H \/ exists i ps, nth_error rs i = Some (high s) /\ nth_error pss i = Some ps /\ ~ sustained ps) /\
  best s = match last_good pss with Some ps => snd (measure ps) | None => 0 end /\
  (last_good pss = None -> low s = 0) /\ (last_good pss <> None -> 0 < low s).
Proof.
  intros H pss s rs HH. revert s rs. induction pss as [|ps pss IH] using rev_ind; intros s rs E.
  - injection E as <- <-. cbn [low high best length]. rewrite half_0. repeat split; auto; try lra. intro X. now elim X.
  - rewrite rounds_snoc in E. destruct (rounds _ pss) as [[s1 rs1]|]; [|discriminate]. destruct (goes_on s1); [|discriminate]. injection E as <- <-.
    destruct (IH s1 rs1 eq_refl) as (L & G & P0 & P1 & P2 & A & B & C & D & D'). rewrite !app_length, L. cbn [length]. rewrite Nat.add_1_r, half_S. unfold round. pose proof (measure_good ps) as MG. destruct (measure ps) as [good actual] eqn:M. cbn [fst] in MG.
    assert (Ng : forall i x (l l' : list Q), nth_error l i = Some x -> nth_error (l ++ l') i = Some x) by (intros; rewrite nth_error_app1; [auto|apply nth_error_Some; congruence]).
    assert (Np : forall i x (l l' : list (list pass)), nth_error l i = Some x -> nth_error (l ++ l') i = Some x) by (intros; rewrite nth_error_app1; [auto|apply nth_error_Some; congruence]).
    assert (Ls : nth_error (rs1 ++ [rate s1]) (length pss) = Some (rate s1)) by (rewrite nth_error_app2, L, Nat.sub_diag by lia; reflexivity).
    assert (Lp : nth_error (pss ++ [ps]) (length pss) = Some ps) by (rewrite nth_error_app2, Nat.sub_diag by lia; reflexivity).
    assert (FG : last_good (pss ++ [ps]) = if good then Some ps else last_good pss) by (unfold last_good; rewrite rev_app_distr; cbn [rev app find]; unfold measure in M; injection M as -> _; reflexivity).
    rewrite FG. destruct good; cbn [low high best].
    + split; [reflexivity|]. unfold rate at 1 2 3. split; [lra|]. split; [lra|]. split; [lra|]. split; [exact P2|]. split; [right; exists (length pss), ps; split; [exact Ls|split; [exact Lp|now apply MG]]|].
      split; [destruct B as [|(i & q & B1 & B2 & B3)]; [auto|right; exists i, q; auto]|]. split; [now rewrite M|]. split; [discriminate|]. intros _. unfold rate. lra.
    + split; [reflexivity|]. unfold rate at 1 2 3. split; [lra|]. split; [exact P0|]. split; [lra|]. split; [lra|]. split; [destruct A as [|(i & q & B1 & B2 & B3)]; [auto|right; exists i, q; auto]|].
      split; [right; exists (length pss), ps; split; [exact Ls|split; [exact Lp|intro X; apply MG in X; discriminate]]|]. auto.
Qed.
Print Assumptions C79_search.

(** The search ends at most six rounds after the first round that was sustained; its result
    is then within two percent of a rate that was not. *)
Theorem C79_ends : forall H pss ps more, 0 < H -> sustained ps -> (6 <= length more)%nat ->
  forall s rs, rounds {| low := 0; high := H; best := 0 |} (pss ++ ps :: more) = Some (s, rs) -> goes_on s = false /\ high s - low s <= high s * (2 # 100).
Proof.
  intros H pss ps more HH Hg Hm s rs E.
  assert (Lo : forall pss s rs, rounds {| low := 0; high := H; best := 0 |} pss = Some (s, rs) -> (exists a b, pss = a ++ ps :: b) -> forall a b, pss = a ++ ps :: b -> H * half (S (length a)) <= low s).
  { clear E s rs pss. induction pss as [|q pss IH] using rev_ind; intros s rs E _ a b Eq; [destruct a; discriminate|].
    rewrite rounds_snoc in E. destruct (rounds _ pss) as [[s1 rs1]|] eqn:E1; [|discriminate]. destruct (goes_on s1); [|discriminate]. injection E as <- <-.
    destruct (C79_search H pss s1 rs1 HH E1) as (_ & G & P0 & P1 & P2 & _). unfold round. pose proof (measure_good q) as MG. destruct (measure q) as [good actual]. cbn [fst] in MG.
    destruct b as [|b0 b _] using rev_ind.
    - apply app_inj_tail in Eq as [-> ->]. apply MG in Hg as ->. cbn [low]. unfold rate. rewrite half_S. lra.
    - rewrite app_comm_cons, app_assoc in Eq. apply app_inj_tail in Eq as [-> ->]. specialize (IH s1 rs1 eq_refl ltac:(eauto) a b eq_refl). destruct good; cbn [low]; unfold rate; lra. }
  specialize (Lo _ _ _ E ltac:(eauto) pss more eq_refl). destruct (C79_search H _ s rs HH E) as (_ & G & P0 & P1 & P2 & _).
  assert (X : half (length (pss ++ ps :: more)) <= half (S (length pss)) * (1 # 64)).
  { rewrite app_length. cbn [length]. replace (length pss + S (length more))%nat with (S (length pss) + 6 + (length more - 6))%nat by lia. generalize (length more - 6)%nat as e. intro e.
    assert (Y : half (S (length pss) + 6 + e) <= half (S (length pss) + 6)). { induction e as [|e IH]; [rewrite Nat.add_0_r; apply Qle_refl|]. rewrite Nat.add_succ_r, half_S. pose proof (half_pos (S (length pss) + 6 + e)). lra. }
    eapply Qle_trans; [exact Y|]. replace (S (length pss) + 6)%nat with (S (S (S (S (S (S (S (length pss)))))))) by lia. rewrite !half_S. pose proof (half_pos (length pss)). lra. }
  assert (Z0 : H * half (length (pss ++ ps :: more)) <= H * (half (S (length pss)) * (1 # 64))) by (rewrite !(Qmult_comm H); apply Qmult_le_compat_r; [exact X|lra]).
  assert (W : high s - low s <= high s * (2 # 100)) by lra. split; [|exact W]. unfold goes_on. apply Qle_bool_iff in W. now rewrite W.
Qed.
Print Assumptions C79_ends.

(** F52: if no rate is sustained, the search never ends: the rates tried go to 0, and each
    round takes longer. *)
Theorem C79_never_refuted : forall H pss, 0 < H -> (forall ps, In ps pss -> ~ sustained ps) ->
  exists s rs, rounds {| low := 0; high := H; best := 0 |} pss = Some (s, rs) /\ goes_on s = true /\ high s == H * half (length pss).
Proof.
  intros H pss HH. induction pss as [|ps pss IH] using rev_ind; intro Hb.
  - eexists _, _. split; [reflexivity|]. cbn [high length]. rewrite half_0. split; [|lra]. unfold goes_on. cbn [low high]. apply negb_true_iff. destruct (Qle_bool _ _) eqn:Q; [|reflexivity]. apply Qle_bool_iff in Q. lra.
  - destruct IH as (s & rs & E & G & Hs); [intros q Hq; apply Hb, in_or_app; auto|]. assert (E' : rounds {| low := 0; high := H; best := 0 |} (pss ++ [ps]) = Some (round s ps, rs ++ [rate s])) by (rewrite rounds_snoc, E, G; reflexivity).
    exists (round s ps), (rs ++ [rate s]). split; [exact E'|]. destruct (C79_search H _ _ _ HH E') as (_ & G1 & _ & P1 & _ & _ & _ & _ & D & _).
    assert (N : last_good (pss ++ [ps]) = None). { unfold last_good. apply find_none_iff || (destruct (find _ _) as [q|] eqn:F; [|reflexivity]; apply find_some in F as [F1 F2]; apply in_rev in F1; elim (Hb q F1); apply measure_good; exact F2). }
    specialize (D N). rewrite D in *. split; [|lra]. unfold goes_on. rewrite D. apply negb_true_iff. destruct (Qle_bool _ _) eqn:Q; [|reflexivity]. apply Qle_bool_iff in Q. lra.
Qed.
Print Assumptions C79_never_refuted.

(** A link that sustains 3/10 of what is sent. *)
Definition ex_good : list pass := repeat (true, 3 # 10) 5.
Definition ex_bad : list pass := repeat (true, 3 # 10) 4 ++ [(false, 3 # 10)].
Example C79_ex : exists s rs,
  rounds {| low := 0; high := 1; best := 0 |} ([ex_bad] ++ ex_good :: [ex_bad; ex_good; ex_bad; ex_bad; ex_bad]) = Some (s, rs) /\ goes_on s = true /\ rounds s [ex_good; ex_good; ex_good] = None /\
  sustained ex_good /\ ~ sustained ex_bad /\ Qeq_bool (low s) (5 # 16) = true /\ Qeq_bool (high s) (41 # 128) = true /\ Qeq_bool (best s) (3 # 10) = true.
Proof.
  eexists _, _. split; [vm_compute; reflexivity|]. split; [vm_compute; reflexivity|]. split; [vm_compute; reflexivity|]. split; [intros p Hp; apply repeat_spec in Hp; now subst|]. split; [intro X; specialize (X (false, 3 # 10) ltac:(apply in_or_app; right; now left)); discriminate|]. repeat split; vm_compute; reflexivity.
Qed.
Example C79_begin_ex : (exists q, begin ex_good = inl q /\ q == 3 # 10) /\ (exists s, begin ex_bad = inr s /\ low s = 0 /\ high s == 3 # 10).
Proof. split; eexists; (split; [reflexivity|]); [vm_compute; reflexivity|split; [reflexivity|vm_compute; reflexivity]]. Qed.
Example C79_ends_ex : exists s rs,
  rounds {| low := 0; high := 1; best := 0 |} ([ex_bad] ++ ex_good :: [ex_bad; ex_good; ex_bad; ex_bad; ex_bad; ex_good]) = Some (s, rs) /\ goes_on s = false.
Proof. eexists _, _. split; vm_compute; reflexivity. Qed.
