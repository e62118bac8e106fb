(** Invariants of chunk streams with rings (C62): producers, stops and clean chunks. *)
From Coq Require Import List Arith Bool Lia.
From Verif Require Import ConcBase RingModel RingSpec RingProofs RingProps RingStreamProofs ChunkRingModel ChunkRingSpec ChunkRingProofs ChunkRingInv.
Import ListNotations.

(** *** Producers of the data ring *)
Definition effc (c : client) : bool := match c with KRemove _ _ true => true | _ => false end.
Definition eff (l : list client) (x : cstream) : bool := match c_mutex x with Some t => match nth_error l t with Some c => effc c | None => false end | None => false end.
Definition live (l : list client) (x : cstream) : nat := Nat.b2n (negb (c_removed x) && negb (eff l x)).
Lemma eff_upd l t c' x : t < length l -> eff (upd l t c') x = match c_mutex x with Some u => if Nat.eqb u t then effc c' else eff l x | None => false end.
Proof. intro L. unfold eff. destruct (c_mutex x) as [u|]; [|reflexivity]. rewrite nth_upd. destruct (Nat.eqb_spec u t) as [->|]; [|reflexivity]. apply Nat.ltb_lt in L. now rewrite L. Qed.
Lemma eff_at l x t c : c_mutex x = Some t -> nth_error l t = Some c -> eff l x = effc c. Proof. unfold eff. now intros -> ->. Qed.
Lemma sumw_except {A} (f g : A -> nat) l : forall i x x', nth_error l i = Some x -> (forall j y, j <> i -> nth_error l j = Some y -> g y = f y) -> sumw g (upd l i x') + f x = sumw f l + g x'.
Proof.
  assert (E : forall m, (forall j y, nth_error m j = Some y -> g y = f y) -> sumw g m = sumw f m). { induction m as [|a m IH]; intro H; [reflexivity|]. cbn. rewrite (H 0 a eq_refl), IH; [reflexivity|]. intros j y Hy. exact (H (S j) y Hy). }
  induction l as [|a l IH]; intros [|i] x x' H K; try discriminate.
  - injection H as <-. cbn. rewrite (E l); [lia|]. intros j y Hy. exact (K (S j) y ltac:(discriminate) Hy).
  - cbn in *. rewrite (K 0 a ltac:(discriminate) eq_refl). specialize (IH i x x' H). rewrite <- Nat.add_assoc, IH; [lia|]. intros j y N Hy. exact (K (S j) y ltac:(congruence) Hy).
Qed.
Lemma sumw_ext {A} (f g : A -> nat) l : (forall y, g y = f y) -> sumw g l = sumw f l.
Proof. intro H. induction l as [|a l IH]; [reflexivity|]. cbn. now rewrite H, IH. Qed.
Lemma live_same s t c c' s' : nth_error (cl s) t = Some c -> cl s' = upd (cl s) t c' -> effc c = effc c' -> forall y, live (cl s') y = live (cl s) y.
Proof.
  intros Hc Hcl E y. unfold live. rewrite Hcl, eff_upd by (eapply nth_lt; eauto). destruct (c_mutex y) as [u|] eqn:M; [|unfold eff; now rewrite M]. destruct (Nat.eqb_spec u t) as [->|]; [|reflexivity]. now rewrite (eff_at _ _ _ _ M Hc), E.
Qed.
Lemma live_one s t c c' s' i x x' : locks s -> nth_error (cl s) t = Some c -> cl s' = upd (cl s) t c' -> nth_error (st s) i = Some x -> st s' = upd (st s) i x' -> (holds c = Some i \/ holds c = None) ->
  sumw (live (cl s')) (st s') + live (cl s) x = sumw (live (cl s)) (st s) + live (cl s') x'.
Proof.
  intros L Hc Hcl Hx Hst Ho. rewrite Hst. apply sumw_except; [exact Hx|]. intros j y N Hy. unfold live. rewrite Hcl, eff_upd by (eapply nth_lt; eauto). destruct (c_mutex y) as [u|] eqn:M; [|unfold eff; now rewrite M].
  destruct (Nat.eqb_spec u t) as [->|]; [|reflexivity]. exfalso. destruct (l_mutex _ L j y t Hy M) as (d & Hd & Hj). assert (d = c) by congruence. subst d. destruct Ho; congruence.
Qed.
Definition counted (s : cstate) : Prop := Pr s = sumw (live (cl s)) (st s).
Lemma counted_move s t c c' s' ev : locks s -> counted s -> nth_error (cl s) t = Some c -> cl s' = upd (cl s) t c' -> move t s s' c c' ev -> counted s'.
Proof.
  intros L C Hc Hcl M. unfold counted in *. pose proof (nth_lt _ _ _ Hc) as Lt.
  assert (K0 : effc c = effc c' -> st s' = st s -> Pr s' = Pr s -> Pr s' = sumw (live (cl s')) (st s')).
  { intros E1 E2 E3. rewrite E2, E3, C. symmetry. apply sumw_ext. eapply live_same; eauto. }
  assert (K1 : forall i x x', nth_error (st s) i = Some x -> st s' = upd (st s) i x' -> (holds c = Some i \/ holds c = None) -> Pr s' = Pr s -> live (cl s) x = live (cl s') x' -> Pr s' = sumw (live (cl s')) (st s')).
  { intros i x x' Hx Hst Ho E1 E2. pose proof (live_one s t c c' s' i x x' L Hc Hcl Hx Hst Ho). lia. }
  assert (K2 : forall i x x', nth_error (st s) i = Some x -> st s' = upd (st s) i x' -> (holds c = Some i \/ holds c = None) -> Pr s' = Pr s -> (c_mutex x = Some t \/ c_mutex x = None) -> effc c = false -> effc c' = false -> (c_mutex x' = Some t \/ c_mutex x' = None) -> c_removed x' = c_removed x -> Pr s' = sumw (live (cl s')) (st s')).
  { intros i x x' Hx Hst Ho E1 M1 E2 E3 M2 R. eapply K1; eauto. unfold live. rewrite R. f_equal. f_equal. f_equal. rewrite Hcl, eff_upd by exact Lt.
    assert (E : eff (cl s) x = false). { destruct M1 as [M1|M1]; [now rewrite (eff_at _ _ _ _ M1 Hc)|unfold eff; now rewrite M1]. }
    rewrite E. destruct M2 as [-> | ->]; [|reflexivity]. now rewrite Nat.eqb_refl. }
  assert (Ih := fun i => l_holds _ L _ _ i Hc).
  destruct M; match goal with U : upto _ _ _ _ _ _ _ _ |- _ => destruct U as (Ust & _ & _ & _ & _ & Up) end; try (apply K0; [reflexivity|exact Ust|exact Up]);
    try (destruct (Ih _ eq_refl) as (y & Hy & My & Iy); match goal with Hx : nth_error (st s) ?i = Some ?x |- _ => assert (y = x) by congruence; subst y; eapply (K2 i x); cbn; eauto; destruct k; reflexivity end; fail).
  - rewrite Ust, Up, C, sumw_app. cbn. rewrite (sumw_ext (live (cl s)) (live (cl s'))); [unfold live, eff; cbn; lia|]. eapply live_same; eauto.
  - eapply K2; cbn; eauto.
  - eapply K2; cbn; eauto.
  - eapply K2; cbn; eauto.
  - eapply K2; cbn; eauto.
  - apply K0; [now destruct k|exact Ust|exact Up].
  - destruct (Ih _ eq_refl) as (x & Hx & Mx & Ix). assert (E1 : live (cl s) x = 1) by (unfold live; rewrite (eff_at _ _ _ _ Mx Hc); destruct Ix as (_ & -> & _); reflexivity).
    assert (E2 : live (cl s') x = 0) by (unfold live; rewrite Hcl, eff_upd, Mx, Nat.eqb_refl by exact Lt; cbn; now rewrite andb_false_r).
    pose proof (live_one s t _ _ s' i x x L Hc Hcl Hx ltac:(now rewrite upd_id) (or_introl eq_refl)). pose proof (sumw_ge (live (cl s)) _ _ _ Hx). lia.
  - destruct (Ih _ eq_refl) as (y & Hy & Mx & Ix). assert (y = x) by congruence. subst y. assert (E1 : live (cl s) x = if eff0 then 0 else 1) by (unfold live; rewrite (eff_at _ _ _ _ Mx Hc); destruct Ix as (_ & -> & _); now destruct eff0).
    pose proof (live_one s t _ _ s' i x _ L Hc Hcl Hy Ust (or_introl eq_refl)) as E. pose proof (sumw_ge (live (cl s)) _ _ _ Hy). unfold live in E at 4. cbn in E. destruct eff0; lia.
Qed.

(** *** Why the data ring is stopped *)
Definition finished (tr1 : list cevent) : Prop := (exists j, In (Made j) tr1) /\ forall j, In (Made j) tr1 -> In (Over j) tr1.
Record why (tr : list cevent) (s : cstate) : Prop := {
  y_made : forall i, i < length (st s) -> In (Made i) tr;
  y_call : forall t c, nth_error (cl s) t = Some c -> match c with KStopFree _ | KStopData _ | KExt _ => user_stop tr | _ => True end;
  y_stopped : Sd s = true -> user_stop tr \/ exists tr1 tr2, tr = tr1 ++ tr2 /\ finished tr1;
  y_buried : forall i v, In (Buried i v) tr -> user_stop tr \/ exists tr1 tr2, tr = tr1 ++ tr2 /\ finished tr1 /\ ~ In (Made i) tr1 }.
Lemma user_stop_app tr ev : user_stop tr -> user_stop (tr ++ ev).
Proof. intros [H|[i H]]; [left|right; exists i]; apply in_or_app; auto. Qed.
Lemma why_move tr s t c c' s' ev : locks s -> flows tr s -> counted s -> why tr s -> nth_error (cl s) t = Some c -> cl s' = upd (cl s) t c' -> move t s s' c c' ev -> why (tr ++ ev) s'.
Proof.
  intros L F C [Y1 Y2 Y3 Y4] Hc Hcl M. assert (Ih := fun i => l_holds _ L _ _ i Hc). pose proof (nth_lt _ _ _ Hc) as Lt.
  assert (A3 : Sd s = true -> user_stop (tr ++ ev) \/ exists tr1 tr2, tr ++ ev = tr1 ++ tr2 /\ finished tr1).
  { intro H. destruct (Y3 H) as [U|(tr1 & tr2 & -> & Fi)]; [left; now apply user_stop_app|]. right. exists tr1, (tr2 ++ ev). now rewrite app_assoc. }
  assert (A4 : forall i v, In (Buried i v) tr -> user_stop (tr ++ ev) \/ exists tr1 tr2, tr ++ ev = tr1 ++ tr2 /\ finished tr1 /\ ~ In (Made i) tr1).
  { intros i v H. destruct (Y4 i v H) as [U|(tr1 & tr2 & -> & Fi & N)]; [left; now apply user_stop_app|]. right. exists tr1, (tr2 ++ ev). rewrite app_assoc. auto. }
  constructor.
  - intros i Hi. apply in_or_app. destruct (Nat.lt_ge_cases i (length (st s))) as [G|G]; [left; now apply Y1|]. right.
    destruct M; match goal with U : upto _ _ _ _ _ _ _ _ |- _ => destruct U as (Ust & _) end; rewrite Ust, ?upd_length in Hi; try lia. rewrite app_length in Hi. cbn in Hi. right. left. f_equal. lia.
  - intros u d Hu. rewrite Hcl, nth_upd in Hu. destruct (Nat.eqb_spec u t) as [->|N].
    + destruct (t <? length (cl s)); [|discriminate]. injection Hu as <-. specialize (Y2 _ _ Hc). destruct M; try exact I; try (apply user_stop_app; exact Y2);
        try (unfold user_stop; rewrite in_app_iff; cbn; (left; right; now left) || (right; eexists; rewrite in_app_iff; cbn; right; now left)).
      * destruct c; try exact I; now apply user_stop_app.
      * destruct k; exact I.
      * destruct k; exact I.
      * destruct c; try exact I; now apply user_stop_app.
      * destruct f; exact I.
      * destruct c; try exact I; now apply user_stop_app.
    + specialize (Y2 _ _ Hu). destruct d; try exact I; now apply user_stop_app.
  - intro S'. destruct (Sd s) eqn:S; [now apply A3|]. destruct M; match goal with U : upto _ _ _ _ _ _ _ _ |- _ => destruct U as (Ust & _ & _ & Usd & _) end; try congruence.
    + left. apply user_stop_app. specialize (Y2 _ _ Hc). destruct H as [[i ->]| ->]; exact Y2.
    + (* the last producer *) right. exists tr, [DataE (EStop t)]. split; [reflexivity|]. destruct (Ih _ eq_refl) as (x & Hx & Mx & Ix).
      assert (E1 : live (cl s) x = 1) by (unfold live; rewrite (eff_at _ _ _ _ Mx Hc); destruct Ix as (_ & -> & _); reflexivity).
      split; [exists i; apply Y1; eapply nth_lt; eauto|]. intros j Hj. destruct (Nat.lt_ge_cases j (length (st s))) as [G|G]; [|now destruct (fs_none _ _ F j G) as (_ & _ & _ & _ & _ & ?)].
      destruct (nth_error (st s) j) as [y|] eqn:Hy; [|apply nth_error_None in Hy; lia]. apply (f_over _ _ _ _ (fs_flow _ _ F j y Hy)). destruct (Nat.eq_dec j i) as [->|Nj].
      * right. assert (y = x) by congruence. subst y. rewrite (rem_at _ _ _ _ _ Mx Hc). cbn. apply Nat.eqb_refl.
      * assert (Z : live (cl s) y = 0). { pose proof (sumw_upd (live (cl s)) _ _ _ cnew Hx) as E2. pose proof (sumw_ge (live (cl s)) (upd (st s) i cnew) j y ltac:(now rewrite upd_other)) as E3. assert (E4 : live (cl s) cnew = 1) by reflexivity. pose proof (sumw_upd (live (cl s)) (upd (st s) i cnew) i cnew {| c_win := []; c_grave := []; c_mutex := None; c_done := false; c_removed := true |} ltac:(apply upd_same; eapply nth_lt; eauto)) as E5. cbn in E5. pose proof (sumw_ge (live (cl s)) (upd (upd (st s) i cnew) i {| c_win := []; c_grave := []; c_mutex := None; c_done := false; c_removed := true |}) j y ltac:(rewrite !upd_other by exact Nj; exact Hy)) as E6. unfold counted in C. lia. }
        unfold live in Z. destruct (c_removed y); [now left|]. right. cbn in Z. destruct (eff (cl s) y) eqn:E; [|discriminate]. unfold eff in E. unfold rem. destruct (c_mutex y) as [u|] eqn:Mu; [|discriminate]. destruct (nth_error (cl s) u) as [d|] eqn:Hd; [|discriminate]. destruct (l_mutex _ L j y u Hy Mu) as (d' & Hd' & Hj'). assert (d' = d) by congruence. subst d'. destruct d as [| | | | | |j' f' []| | | | | |]; try discriminate. cbn in Hj' |- *. apply Nat.eqb_eq. congruence.
  - intros i v Hi. apply in_app_or in Hi as [Hi|Hi]; [exact (A4 i v Hi)|]. assert (S : Sd s = true /\ exists k, c = KReady i v k false).
    { destruct M; cbn in Hi; try (decompose [or] Hi; discriminate || contradiction); try (destruct Hi; fail).
      - apply in_app_or in Hi as [Hi|[Hi|[]]]; [|discriminate]. apply in_map_iff in Hi as (? & ? & _). discriminate.
      - destruct Hi as [Hi|[Hi|[]]]; [discriminate|]. injection Hi as <- <-. eauto. }
    destruct S as [S (k & ->)]. destruct (Y3 S) as [U|(tr1 & tr2 & E & Fi)]; [left; now apply user_stop_app|]. right. exists tr1, (tr2 ++ ev). rewrite app_assoc, <- E. split; [reflexivity|]. split; [exact Fi|]. intro Q. apply (proj2 Fi) in Q.
    destruct (Ih _ eq_refl) as (x & Hx & Mx & Ix). assert (O : In (Over i) tr) by (rewrite E; apply in_or_app; auto). apply (f_over _ _ _ _ (fs_flow _ _ F i x Hx)) in O as [O|O].
    + destruct k as [[]|]; cbn in Ix; destruct Ix; congruence.
    + rewrite (rem_at _ _ _ _ _ Mx Hc) in O. discriminate.
Qed.

(** *** Clean chunks *)
Definition fresh (v : nat) (c : client) : nat := match c with KAlloc _ (Some w) | KAdd w false => cnt v [w] | _ => 0 end.
Definition clean (tr : list cevent) (s : cstate) : Prop := forall v, In v (dirty s) -> cnt v (pushes (of_f tr)) + sumw (fresh v) (cl s) <= cnt v (pops (of_f tr)).
Lemma fresh_carry v c : fresh v c <= carry v c.
Proof. unfold carry. destruct c as [| | |i [w|]| | | | | | |w []| |]; cbn; lia. Qed.
Lemma sumw_le {A} (f g : A -> nat) l : (forall y, f y <= g y) -> sumw f l <= sumw g l.
Proof. intro H. induction l as [|a l IH]; [apply le_n|]. cbn. specialize (H a). lia. Qed.
Lemma in_cnt v l : In v l -> 1 <= cnt v l.
Proof. intro H. apply (count_occ_In Nat.eq_dec) in H. lia. Qed.
Lemma in_remove_all u v l : In u (remove_all v l) -> In u l /\ u <> v.
Proof. induction l as [|a l IH]; [intros []|]. cbn. destruct (Nat.eqb_spec v a) as [->|N]; [intro H; destruct (IH H); auto|]. intros [->|H]; [auto|destruct (IH H); auto]. Qed.
Lemma ring_cnt cap n tr (g : ring nat) v : exec cap n tr g -> cnt v (pops tr) <= cnt v (pushes tr).
Proof. intro E. destruct (C23_fifo Nat.eq_dec _ _ _ _ E) as (q & -> & _). rewrite count_occ_app. lia. Qed.
Lemma clean_move capd capf n chunks tr s t c c' s' ev : NoDup chunks -> base capd capf n tr s -> tally chunks tr s -> clean tr s -> nth_error (cl s) t = Some c -> cl s' = upd (cl s) t c' -> move t s s' c c' ev -> clean (tr ++ ev) s'.
Proof.
  intros ND B T C Hc Hcl M v Hv. rewrite of_f_app, pushes_app, pops_app, !count_occ_app, Hcl. pose proof (sumw_upd (fresh v) _ _ _ c' Hc) as Sc. unfold fresh in Sc at 2 4.
  assert (U : 1 <= cnt v (mine s) + sumw (owned v) (st s) -> cnt v (pushes (of_f tr)) + sumw (fresh v) (cl s) <= cnt v (pops (of_f tr))).
  { intro H. specialize (T v). pose proof (ring_cnt _ _ _ _ v (b_d _ _ _ _ _ B)). pose proof (sumw_le _ _ (cl s) (fresh_carry v)). pose proof (proj1 (NoDup_count_occ Nat.eq_dec chunks) ND v). lia. }
  assert (K : In v (dirty s) -> cnt v (pushes (of_f tr)) + sumw (fresh v) (cl s) <= cnt v (pops (of_f tr))) by apply C.
  destruct M; match goal with U : upto _ _ _ _ _ _ _ _ |- _ => destruct U as (_ & _ & Ud & _) end; rewrite Ud in Hv; cbn [of_f flat_map app pushes pops count_occ] in *;
    try (specialize (K Hv)); try (destruct k; lia); try (destruct f; lia); try lia.
  - destruct Hv as [->|Hv]; [|specialize (K Hv); lia]. pose proof (sumw_ge (owned v) _ _ _ H) as G. apply in_cnt in H0. unfold owned in G at 1. lia.
  - rewrite of_f_app, of_f_freed. cbn. lia.
  - apply in_remove_all in Hv as [Hv N]. specialize (K Hv). destruct (Nat.eq_dec v0 v); [congruence|]. lia.
  - destruct Hv as [->|Hv]; [|specialize (K Hv); lia]. apply in_cnt in H. lia.
  - destruct k; cbn in *; lia.
  - destruct k; cbn in *; lia.
Qed.

(** *** After stop has returned *)
Definition ret (tr : list cevent) (s : cstate) : Prop := forall i, In (StopRet i) tr -> exists x, nth_error (st s) i = Some x /\ c_removed x = true /\ c_grave x = [] /\ c_win x = [].
Lemma removed_out s t c i x : locks s -> nth_error (cl s) t = Some c -> nth_error (st s) i = Some x -> c_removed x = true -> c_win x = [] -> holds c = Some i -> c = KHeld i \/ c = KFlush i UserFlush.
Proof.
  intros L Hc Hx R W Ho. destruct (l_holds _ L _ _ _ Hc Ho) as (y & Hy & _ & Iy). assert (y = x) by congruence. subst y.
  destruct c as [| |j|j got|j v [[]|] sent|j []|j [] e|j|j|j ph|v sent|b got|b]; cbn in Ho, Iy; try discriminate; injection Ho as ->; auto; exfalso; intuition congruence.
Qed.
Lemma ret_move tr s t c c' s' ev : locks s -> know s -> ret tr s -> nth_error (cl s) t = Some c -> cl s' = upd (cl s) t c' -> move t s s' c c' ev ->
  ret (tr ++ ev) s' /\ forall i, In (StopRet i) tr -> forallb (fun e => negb (about i e)) ev = true.
Proof.
  intros L K R Hc Hcl M. assert (Ho := removed_out s t c).
  assert (A : forall i x, nth_error (st s) i = Some x -> c_removed x = true -> c_grave x = [] -> c_win x = [] -> forallb (fun e => negb (about i e)) ev = true /\ exists x', nth_error (st s') i = Some x' /\ c_removed x' = true /\ c_grave x' = [] /\ c_win x' = []).
  { intros i x Hx Re Gr Wi. pose proof (nth_lt _ _ _ Hx) as Li.
    destruct M; match goal with U : upto _ _ _ _ _ _ _ _ |- _ => destruct U as (Ust & _) end; rewrite Ust;
    try (split; [reflexivity|eauto; fail]);
    try (match goal with Hy : nth_error (st s) ?j = Some ?y |- context [upd (st s) ?j ?y'] => destruct (Nat.eq_dec i j) as [->|Nj];
      [assert (y = x) by congruence; subst y; try (destruct (Ho j x L Hc Hx Re Wi eq_refl); congruence); split;
         [|rewrite upd_same by exact Li; eexists; split; [reflexivity|cbn; auto]]; try reflexivity
      |rewrite upd_other by exact Nj; split; [|eauto]; try reflexivity] end).
    - rewrite nth_error_app1 by exact Li. split; [|eauto]. cbn. rewrite andb_true_r. apply negb_true_iff, Nat.eqb_neq. lia.
    - destruct (Nat.eq_dec i i0) as [->|Nj]; [congruence|]. rewrite upd_other by exact Nj. split; [reflexivity|eauto].
    - destruct (Nat.eq_dec i i0) as [->|Nj]; [congruence|]. rewrite upd_other by exact Nj. split; [reflexivity|eauto].
    - split; [|eauto]. cbn. rewrite andb_true_r. apply negb_true_iff, Nat.eqb_neq. intros ->. destruct (Ho i x L Hc Hx Re Wi eq_refl) as [E|E]; [discriminate|]. injection E as ->. congruence.
    - rewrite Gr. reflexivity.
    - rewrite forallb_app. cbn. rewrite andb_true_r. clear -Nj. apply forallb_forall. intros e He. apply in_map_iff in He as (w & <- & _). cbn. apply negb_true_iff, Nat.eqb_neq. congruence.
    - split; [|eauto]. cbn. rewrite andb_true_r. apply negb_true_iff, Nat.eqb_neq. intros ->. destruct (Ho i x L Hc Hx Re Wi eq_refl); discriminate.
    - destruct (Nat.eq_dec i i0) as [->|Nj]; [destruct (Ho i0 x L Hc Hx Re Wi eq_refl); discriminate|]. rewrite upd_other by exact Nj. split; [|eauto]. cbn. rewrite andb_true_r. apply negb_true_iff, Nat.eqb_neq. congruence.
    - destruct (Nat.eq_dec i i0) as [->|Nj]; [destruct (Ho i0 x L Hc Hx Re Wi eq_refl); discriminate|]. rewrite upd_other by exact Nj. split; [reflexivity|eauto].
    - destruct (Nat.eq_dec i i0) as [->|Nj]; [destruct (Ho i0 x L Hc Hx Re Wi eq_refl); discriminate|]. rewrite upd_other by exact Nj. split; [|eauto]. cbn. rewrite andb_true_r. apply negb_true_iff, Nat.eqb_neq. congruence. }
  split.
  - intros i Hi. apply in_app_or in Hi as [Hi|Hi].
    + destruct (R i Hi) as (x & Hx & Re & Gr & Wi). now destruct (A i x Hx Re Gr Wi).
    + pose proof (K _ _ Hc) as Kc. destruct M; cbn in Hi; try (decompose [or] Hi; discriminate || contradiction); try (destruct Hi; fail). apply in_app_or in Hi as [Hi|[Hi|[]]]; [apply in_map_iff in Hi as (? & ? & _); discriminate|]. injection Hi as <-.
      destruct Kc as [(y & Hy & D) _]. assert (y = x) by congruence. subst y. destruct (l_quiet _ L _ _ H H0) as [Q1 Q2]. destruct H1 as (Ust & _). rewrite Ust. eexists. rewrite upd_same by (eapply nth_lt; eauto). split; [reflexivity|]. cbn. rewrite Q1. auto.
  - intros i Hi. destruct (R i Hi) as (x & Hx & Re & Gr & Wi). now destruct (A i x Hx Re Gr Wi).
Qed.
Lemma sent_move t s s' c c' ev : move t s s' c c' ev -> all_sent ev = pushes (of_d ev).
Proof. intro M. destruct M; try reflexivity. rewrite of_d_app, of_d_freed, all_sent_app. cbn. rewrite app_nil_r. induction (c_grave x); [reflexivity|assumption]. Qed.
Lemma alloc_move t s s' c c' ev i v : move t s s' c c' ev -> In (Alloc i v) ev -> c = KAlloc i (Some v) /\ dirty s' = dirty s.
Proof.
  intros M H. destruct M; cbn in H; try (decompose [or] H; discriminate || contradiction); try (destruct H; fail).
  - apply in_app_or in H as [H|[H|[]]]; [apply in_map_iff in H as (? & ? & _)|]; discriminate.
  - match goal with U : upto _ _ _ _ _ _ _ _ |- _ => destruct U as (_ & _ & Ud & _) end. destruct H as [H|[H|[]]]; [discriminate|]. injection H as <- <-. auto.
Qed.

(** *** All invariants together *)
Record cinv (capd capf n : nat) (chunks : list nat) (tr : list cevent) (s : cstate) : Prop := {
  i_base : base capd capf n tr s; i_locks : locks s; i_know : know s; i_flows : flows tr s; i_tally : tally chunks tr s; i_counted : counted s; i_why : why tr s; i_ret : ret tr s;
  i_sent : all_sent tr = pushes (of_d tr); i_clean : NoDup chunks -> clean tr s }.
Lemma cinv_init capd capf n chunks : cinv capd capf n chunks [] (cinit capd capf n chunks).
Proof.
  assert (R : forall t c, nth_error (repeat KIdle n) t = Some c -> c = KIdle) by (intros t c H; apply nth_error_In, repeat_spec in H; exact H). constructor.
  - constructor; [apply exec_new|apply exec_new|apply repeat_length|]. cbn. intros t c pd pf H H1 H2. apply R in H. subst c. apply nth_error_In, repeat_spec in H1, H2. now split.
  - constructor; cbn.
    + intros t c i H Ho. apply R in H. subst c. discriminate.
    + intros i x t H. now destruct i.
    + intros i x H. now destruct i.
  - intros t c H. apply R in H. now subst c.
  - constructor; cbn; [intros i x H; now destruct i|auto 8].
  - intro v. cbn. rewrite sumw_repeat. cbn. lia.
  - reflexivity.
  - constructor; cbn; [lia| |discriminate|intros i v []]. intros t c H. apply R in H. now subst c.
  - intros i [].
  - reflexivity.
  - intros _ v _. cbn. rewrite sumw_repeat. cbn. lia.
Qed.
Lemma cinv_next capd capf n chunks tr s l s' ev : cinv capd capf n chunks tr s -> cnext s l = Some (s', ev) ->
  cinv capd capf n chunks (tr ++ ev) s' /\ exists t c c', nth_error (cl s) t = Some c /\ cl s' = upd (cl s) t c' /\ move t s s' c c' ev.
Proof.
  intros [B L K F T C Y R S Cl] H. destruct (classify _ _ _ _ _ _ _ _ B H) as (B' & t & c & c' & Hc & Hcl & M). split; [|eauto 6]. constructor.
  - exact B'.
  - eapply locks_move; eauto.
  - eapply know_move; eauto.
  - eapply flows_move; eauto.
  - eapply tally_move; eauto.
  - eapply counted_move; eauto.
  - eapply why_move; eauto.
  - eapply ret_move; eauto.
  - rewrite all_sent_app, of_d_app, pushes_app, S. f_equal. eapply sent_move; eauto.
  - intro ND. eapply clean_move; eauto.
Qed.
Lemma cexec_inv capd capf n chunks tr s : cexec capd capf n chunks tr s -> cinv capd capf n chunks tr s.
Proof. induction 1; [apply cinv_init|eapply cinv_next; eauto]. Qed.
