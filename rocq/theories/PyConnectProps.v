(** C75: opening TCP streams from Python. *)
From Coq Require Import ZArith List Lia Bool.
From Verif Require Import ConcBase PyConnectModel PyConnectSpec PyConnectProofs.
Import ListNotations.

(** ** What holds always *)

(** No handler runs on a writer that was destroyed, whatever the program drops
    and whichever calls are interrupted. *)
Theorem C75_safe : forall n ls, crun (cst_init n) ls [] <> Some Ub.
Proof. intros n ls H. exact (inv_run _ _ _ H). Qed.
Print Assumptions C75_safe.

(** Python learns the result of a connection once, after the attempt has ended,
    and it is the result of the attempt, which ends once. *)
Lemma opens_in i e es : In (VOpen i e) es -> 1 <= opens i es.
Proof.
  intro H. apply In_nth_error in H as (m & Hm).
  pose proof (sumw_ge (fun e => match e with VOpen j _ => if j =? i then 1 else 0 | _ => 0 end) _ _ _ Hm) as G. cbn beta iota in G.
  rewrite Nat.eqb_refl in G. exact G.
Qed.
Lemma open_step s es ks l s' e i x : inv s es ks -> cstep s l = Some (Ok s' e) -> In (VOpen i x) e -> In (VNet i x) es.
Proof.
  intros I R H. destruct l as [t|t|t a|t j|t j|t|t|t|j y|j|j|j ok|j]; cbn [cstep] in R;
    try solve [repeat match type of R with
      | (if ?b then _ else _) = _ => destruct b
      | match ?b with _ => _ end = _ => destruct b
      end; try discriminate R; injection R as <- <-; repeat (destruct H as [H|H]; try discriminate H); destruct H].
  - destruct (runs s t); [|discriminate]. destruct (nth_error (conns s) j) as [c|] eqn:Hc; [|discriminate]. destruct (n_fut c) eqn:Hf; try discriminate.
    injection R as <- <-. destruct H as [H|[]]. injection H as <- <-. destruct (i_conn _ _ _ I _ _ Hc) as (a & _ & [_ _ _ _ _ K6 K7]).
    destruct a; [destruct (K6 eq_refl) as (_ & _ & _ & X); now rewrite Hf in X|destruct (K7 eq_refl) as (X & _); congruence].
  - destruct (nth_error (thr s) t) as [[|j|j]|] eqn:Ht; try discriminate. destruct (gil s); [discriminate|].
    destruct (nth_error (conns s) j) as [c|] eqn:Hc; [|discriminate]. destruct (n_sem c) as [|m] eqn:Hs; [discriminate|].
    injection R as _ <-. destruct H as [H|[]]. injection H as <- <-. destruct (i_conn _ _ _ I _ _ Hc) as (a & _ & [_ _ _ _ _ K6 K7]).
    destruct (sem_conn _ _ _ _ _ I Ht) as (c0 & Hc0 & Hp). rewrite Hc in Hc0. injection Hc0 as <-.
    destruct a; [destruct (K6 eq_refl) as (_ & X & _); congruence|]. destruct (K7 eq_refl) as (_ & _ & _ & X & Y). specialize (X Hp). apply Y.
    destruct (early (n_net c)); [cbn [negb b2n] in X; lia|reflexivity].
Qed.
Theorem C75_result : forall n ls s es i e,
  crun (cst_init n) ls [] = Some (Ok s es) -> In (VOpen i e) es -> In (VNet i e) es /\ opens i es = 1 /\ nets i es = 1.
Proof.
  intros n ls s es i e R H. assert (Hn : In (VNet i e) es).
  { revert s es R H. induction ls as [|l ls IH] using rev_ind; intros s es R H; [injection R as <- <-; destruct H|].
    rewrite crun_app in R. destruct (crun (cst_init n) ls []) as [[s1 es1|]|] eqn:E; try discriminate. pose proof (inv_run _ _ _ E) as I. cbn beta iota in I.
    cbn [crun] in R. destruct (cstep s1 l) as [[s2 e2|]|] eqn:St; try discriminate. injection R as <- <-. apply in_or_app. left.
    apply in_app_or in H as [H|H]; [eauto|]. eapply open_step; eauto. }
  split; [exact Hn|]. pose proof (inv_run _ _ _ R) as I. cbn beta iota in I. pose proof (opens_in _ _ _ H) as O.
  destruct (nth_error (conns s) i) as [c|] eqn:Hc.
  - destruct (i_conn _ _ _ I _ _ Hc) as (a & _ & [K1 K2 K3 K4 K5 K6 K7]).
    assert (O1 : opens i es <= 1).
    { destruct a; [destruct (K6 eq_refl) as (-> & _); destruct (is_set (n_fut c)); cbn [b2n]; lia|].
      destruct (K7 eq_refl) as (_ & X & _). destruct (is_wait (n_py c)); cbn [negb b2n] in X; lia. }
    assert (N1 : 1 <= nets i es).
    { apply In_nth_error in Hn as (m & Hm).
      pose proof (sumw_ge (fun e => match e with VNet j _ => if j =? i then 1 else 0 | _ => 0 end) _ _ _ Hm) as G. cbn beta iota in G.
      rewrite Nat.eqb_refl in G. exact G. }
    split; lia.
  - apply nth_error_None in Hc. destruct (i_none _ _ _ I _ Hc) as (_ & Z & _). lia.
Qed.
Print Assumptions C75_result.

(** ** Patient programs *)

Lemma step_dead s l s' e i c' : cstep s l = Some (Ok s' e) -> (forall j, l <> LCall j false) ->
  nth_error (conns s') i = Some c' -> n_net c' = NDead -> exists c, nth_error (conns s) i = Some c /\ n_net c = NDead.
Proof.
  intros R Hl Hc Hn.
  assert (U : forall j d, nth_error (upd (conns s) j d) i = Some c' -> n_net d <> NDead -> exists c, nth_error (conns s) i = Some c /\ n_net c = NDead).
  { intros j d Hu Hd. rewrite nth_upd in Hu. destruct (Nat.eqb i j); [|eauto]. destruct (j <? length (conns s)); [|discriminate]. injection Hu as <-. contradiction. }
  assert (U2 : forall j d d0, nth_error (conns s) j = Some d0 -> n_net d = n_net d0 -> nth_error (upd (conns s) j d) i = Some c' -> exists c, nth_error (conns s) i = Some c /\ n_net c = NDead).
  { intros j d d0 H0 Hd Hu. rewrite nth_upd in Hu. destruct (Nat.eqb_spec i j) as [->|]; [|eauto]. destruct (j <? length (conns s)); [|discriminate]. injection Hu as <-.
    exists d0. split; [exact H0|congruence]. }
  destruct l as [t|t|t a|t j|t j|t|t|t|j y|j|j|j ok|j]; cbn [cstep] in R.
  - destruct (nth_error (thr s) t) as [[| |]|]; try discriminate. destruct (gil s); [discriminate|]. injection R as <- <-. eauto.
  - destruct (runs s t); [|discriminate]. injection R as <- <-. eauto.
  - destruct (runs s t); [|discriminate]. injection R as <- <-. cbn [conns] in Hc. destruct (Nat.lt_ge_cases i (length (conns s))) as [L|L].
    + rewrite nth_error_app1 in Hc by exact L. eauto.
    + rewrite nth_error_app2 in Hc by exact L. destruct (i - length (conns s)) as [|m]; [|destruct m; discriminate Hc]. injection Hc as <-. discriminate Hn.
  - destruct (runs s t); [|discriminate]. destruct (nth_error (conns s) j) as [c|] eqn:Hj; [|discriminate]. destruct (n_fut c); try discriminate.
    injection R as <- <-. eapply U2; [exact Hj| |exact Hc]. reflexivity.
  - destruct (runs s t); [|discriminate]. destruct (nth_error (conns s) j) as [c|] eqn:Hj; [|discriminate]. destruct (n_py c); try discriminate.
    injection R as <- <-. eapply U2; [exact Hj| |exact Hc]. reflexivity.
  - destruct (nth_error (thr s) t) as [[|j|j]|]; try discriminate. destruct (nth_error (conns s) j) as [c|] eqn:Hj; [|discriminate]. destruct (n_net c) eqn:Hz; try discriminate.
    injection R as <- <-. eapply U2; [exact Hj| |exact Hc]. reflexivity.
  - destruct (nth_error (thr s) t) as [[|j|j]|]; try discriminate. destruct (gil s); [discriminate|]. destruct (nth_error (conns s) j) as [c|] eqn:Hj; [|discriminate].
    destruct (n_sem c); [discriminate|]. injection R as <- <-. destruct (n_ec c =? 0); (eapply U2; [exact Hj| |exact Hc]; reflexivity).
  - destruct (nth_error (thr s) t) as [[|j|j]|]; try discriminate. destruct (gil s); [discriminate|]. destruct (nth_error (conns s) j) as [c|] eqn:Hj; [|discriminate].
    injection R as <- <-. eapply U2; [exact Hj| |exact Hc]. reflexivity.
  - destruct (nth_error (conns s) j) as [c|]; [|discriminate]. destruct (n_net c); try discriminate. injection R as <- <-. eapply U; [exact Hc|discriminate].
  - destruct (nth_error (conns s) j) as [c|]; [|discriminate]. destruct (n_net c); try discriminate. destruct (gone c); [discriminate|]. injection R as <- <-.
    eapply U; [exact Hc|]. destruct (n_async c); discriminate.
  - destruct (nth_error (conns s) j) as [c|]; [|discriminate]. destruct (gil s); [discriminate|]. destruct (n_net c); try discriminate. injection R as <- <-. eapply U; [exact Hc|discriminate].
  - destruct (nth_error (conns s) j) as [c|]; [|discriminate]. destruct (gil s) as [[|i']|]; try discriminate. destruct (i' =? j); [|discriminate].
    destruct (n_net c); try discriminate. injection R as <- <-. destruct ok; [eapply U; [exact Hc|discriminate]|]. exfalso. now apply (Hl j).
  - destruct (nth_error (conns s) j) as [c|]; [|discriminate]. destruct (n_net c); try discriminate. destruct (gone c); [discriminate|]. injection R as <- <-.
    eapply U; [exact Hc|discriminate].
Qed.

(** Which thread begins to destroy what. *)
Lemma step_destroy s es ks l s' e t i : inv s es ks -> cstep s l = Some (Ok s' e) -> nth_error (thr s') t = Some (TDestroy i) ->
  nth_error (thr s) t = Some (TDestroy i) \/ l = LDrop t i \/ exists c, nth_error (conns s) i = Some c /\ n_py c = PWait.
Proof.
  intros I R Ht.
  assert (U : forall u x, nth_error (upd (thr s) u x) t = Some (TDestroy i) -> nth_error (thr s) t = Some (TDestroy i) \/ (t = u /\ x = TDestroy i)).
  { intros u x Hu. rewrite nth_upd in Hu. destruct (Nat.eqb_spec t u) as [->|]; [|auto]. destruct (u <? length (thr s)); [|discriminate]. injection Hu as <-. auto. }
  destruct l as [u|u|u a|u j|u j|u|u|u|j y|j|j|j ok|j]; cbn [cstep] in R;
    try solve [repeat match type of R with
      | (if ?b then _ else _) = _ => destruct b
      | match ?b with _ => _ end = _ => destruct b
      end; try discriminate R; injection R as <- <-; left; exact Ht].
  - destruct (runs s u); [|discriminate]. injection R as <- <-. cbn [thr] in Ht. destruct a; [auto|]. apply U in Ht as [Ht|[_ Ht]]; [auto|discriminate Ht].
  - destruct (runs s u); [|discriminate]. destruct (nth_error (conns s) j) as [c|] eqn:Hj; [|discriminate]. destruct (n_py c); try discriminate.
    injection R as <- <-. apply U in Ht as [Ht|[-> Ht]]; [auto|]. injection Ht as <-. auto.
  - destruct (nth_error (thr s) u) as [[|j|j]|]; try discriminate. destruct (nth_error (conns s) j) as [c|] eqn:Hj; [|discriminate]. destruct (n_net c) eqn:Hz; try discriminate.
    injection R as <- <-. apply U in Ht as [Ht|[-> Ht]]; [auto|discriminate Ht].
  - destruct (nth_error (thr s) u) as [[|j|j]|] eqn:Hu; try discriminate. destruct (gil s); [discriminate|]. destruct (nth_error (conns s) j) as [c|] eqn:Hj; [|discriminate].
    destruct (sem_conn _ _ _ _ _ I Hu) as (c0 & Hc0 & Hp).
    destruct (n_sem c); [discriminate|]. injection R as <- <-. destruct (n_ec c =? 0); apply U in Ht as [Ht|[-> Ht]]; auto; [discriminate Ht|]. injection Ht as <-. eauto.
  - destruct (nth_error (thr s) u) as [[|j|j]|] eqn:Hu; try discriminate. destruct (gil s); [discriminate|]. destruct (nth_error (conns s) j) as [c|] eqn:Hj; [|discriminate].
    destruct (sem_conn _ _ _ _ _ I Hu) as (c0 & Hc0 & Hp). injection R as <- <-. apply U in Ht as [Ht|[-> Ht]]; [auto|]. injection Ht as <-. eauto.
Qed.

Lemma patient_app n a b : patient n (a ++ b) -> patient n a.
Proof.
  intros [P Q]. split; [intros i H; apply (P i), in_or_app; auto|].
  intros l1 l2 t i s es -> R K. eapply Q; eauto. rewrite <- app_assoc. reflexivity.
Qed.

Lemma patient_inv n ls s es : patient n ls -> crun (cst_init n) ls [] = Some (Ok s es) ->
  (forall i c, nth_error (conns s) i = Some c -> n_net c <> NDead) /\
  (forall t i, nth_error (thr s) t = Some (TDestroy i) -> nth_error (kinds ls) i = Some true -> calls i es = 1).
Proof.
  revert s es. induction ls as [|l ls IH] using rev_ind; intros s es P R.
  { injection R as <- <-. split; [intros i c H; destruct i; discriminate H|]. intros t i H. apply nth_error_In, repeat_spec in H. discriminate H. }
  rewrite crun_app in R. destruct (crun (cst_init n) ls []) as [[s1 es1|]|] eqn:E; try discriminate. pose proof (inv_run _ _ _ E) as I. cbn beta iota in I.
  destruct (IH _ _ (patient_app _ _ _ P) eq_refl) as [D C]. cbn [crun] in R. destruct (cstep s1 l) as [[s2 e|]|] eqn:St; try discriminate. injection R as <- <-.
  pose proof (inv_step _ _ _ _ _ I St) as I2. cbn beta iota in I2. rewrite <- kinds_app in I2. destruct P as [P Q]. split.
  - intros i c Hc Hn. assert (Hl : forall j, l <> LCall j false) by (intros j ->; apply (P j), in_or_app; right; now left).
    destruct (step_dead _ _ _ _ _ _ St Hl Hc Hn) as (c0 & H0 & N0). exact (D _ _ H0 N0).
  - intros t i Ht Hk. destruct (des_conn _ _ _ _ _ I2 Ht) as (c & Hc & Hp). destruct (i_conn _ _ _ I2 _ _ Hc) as (a & Ha & Ka). rewrite Hk in Ha. injection Ha as <-.
    enough (X : 1 <= calls i es1).
    { destruct Ka as [_ _ _ _ K5 _ _]. rewrite calls_app in *. destruct (early (n_net c)); cbn [negb b2n] in K5; lia. }
    assert (Hk1 : i < length (conns s1) -> nth_error (kinds ls) i = Some true).
    { intro L. rewrite kinds_app, nth_error_app1 in Hk; [exact Hk|]. now rewrite (i_len _ _ _ I). }
    destruct (step_destroy _ _ _ _ _ _ _ _ I St Ht) as [Ht1|[->|(c0 & Hc0 & Hp0)]].
    + destruct (des_conn _ _ _ _ _ I Ht1) as (c1 & Hc1 & _). rewrite (C _ _ Ht1); [lia|]. apply Hk1. now apply nth_lt in Hc1.
    + assert (L : i < length (conns s1)).
      { cbn [cstep] in St. destruct (runs s1 t); [|discriminate]. destruct (nth_error (conns s1) i) as [c1|] eqn:H1; [|discriminate]. now apply nth_lt in H1. }
      rewrite (Q ls [] t i s1 es1); [lia|reflexivity|exact E|auto].
    + exfalso. destruct (i_conn _ _ _ I _ _ Hc0) as (b & Hb & [_ _ _ _ _ K6 _]). rewrite (Hk1 (nth_lt _ _ _ Hc0)) in Hb. injection Hb as <-.
      destruct (K6 eq_refl) as (_ & X & _). contradiction.
Qed.

Lemma net_of s es ks i c a : inv s es ks -> nth_error (conns s) i = Some c -> nth_error ks i = Some a -> cok i c es a.
Proof. intros I Hc Ha. destruct (i_conn _ _ _ I _ _ Hc) as (b & Hb & K). congruence. Qed.

(** For a patient program every destructor returns once the connection attempt
    has ended, with no help from other Python threads.  (For synchronous streams
    this covers failed and interrupted constructors.) *)
Lemma destroy_returns s es ks t i c :
  inv s es ks -> nth_error (thr s) t = Some (TDestroy i) -> nth_error (conns s) i = Some c ->
  (n_net c = NWaking \/ n_net c = NReady \/ exists e, n_net c = NQueued e /\ n_async c = false) ->
  exists ls2 s2, crun s (ls2 ++ [LFreed t]) es = Some (Ok s2 (es ++ [VFreed i])) /\ Forall (fun l => python l = false) ls2
    /\ runs s2 t = true /\ (forall j, j <> i -> nth_error (conns s2) j = nth_error (conns s) j) /\ (forall u, u <> t -> nth_error (thr s2) u = nth_error (thr s) u).
Proof.
  intros I Ht Hc Hn. destruct (des_conn _ _ _ _ _ I Ht) as (c0 & Hc0 & Hp). rewrite Hc in Hc0. injection Hc0 as <-.
  pose proof (nth_lt _ _ _ Hc) as L. pose proof (nth_lt _ _ _ Ht) as Lt. pose proof (i_holds _ _ _ I _ _ Ht) as Hg.
  assert (Go : forall d, n_py d = PDying -> gone d = false) by (intros d Hd; unfold gone; now rewrite Hd).
  assert (Run : forall th, nth_error th t = Some TRun -> runs {| gil := gil s; thr := th; conns := [] |} t = true).
  { intros th Hth. unfold runs. cbn [thr gil]. now rewrite Hth, Hg, Nat.eqb_refl. }
  destruct Hn as [Hn|[Hn|(x & Hn & Ha)]].
  - exists [LWakeup i]. eexists. split; [|split; [repeat constructor|]].
    + cbn [app crun cstep]. rewrite Hc, Hn, (Go _ Hp). cbn [put thr conns]. rewrite app_nil_r, Ht, (upd_same _ _ _ L). cbn [set_net n_net]. reflexivity.
    + unfold runs. cbn [put put_thr thr conns gil]. rewrite (upd_same _ _ _ Lt), Hg, Nat.eqb_refl. split; [reflexivity|]. split; intros; rewrite ?upd_other by assumption; reflexivity.
  - exists []. eexists. split; [|split; [constructor|]].
    + cbn [app crun cstep]. rewrite Ht, Hc, Hn. reflexivity.
    + unfold runs. cbn [put put_thr thr conns gil]. rewrite (upd_same _ _ _ Lt), Hg, Nat.eqb_refl. split; [reflexivity|]. split; intros; rewrite ?upd_other by assumption; reflexivity.
  - exists [LHandle i; LWakeup i]. eexists. split; [|split; [repeat constructor|]].
    + cbn [app crun cstep]. rewrite Hc, Hn, (Go _ Hp), Ha. cbn [put thr conns gil]. rewrite (upd_same _ _ _ L). cbn [set_net set_sem n_net].
      rewrite Go by exact Hp. cbn [put thr conns gil]. rewrite !app_nil_r, Ht, upd_upd, (upd_same _ _ _ L). cbn [set_net n_net]. reflexivity.
    + unfold runs. cbn [put put_thr thr conns gil]. rewrite (upd_same _ _ _ Lt), Hg, Nat.eqb_refl. split; [reflexivity|].
      split; intros; rewrite ?upd_other by assumption; reflexivity.
Qed.

Lemma destroy_net n ls s es t i c : patient n ls -> crun (cst_init n) ls [] = Some (Ok s es) ->
  nth_error (thr s) t = Some (TDestroy i) -> nth_error (conns s) i = Some c -> nets i es = 1 ->
  n_net c = NWaking \/ n_net c = NReady \/ exists e, n_net c = NQueued e /\ n_async c = false.
Proof.
  intros P R Ht Hc Hn. pose proof (inv_run _ _ _ R) as I. cbn beta iota in I. destruct (patient_inv _ _ _ _ P R) as [D C].
  destruct (i_conn _ _ _ I _ _ Hc) as (a & Ha & [K1 K2 K3 K4 K5 K6 K7]). specialize (D _ _ Hc). destruct a.
  - rewrite (C _ _ Ht Ha) in K5. destruct (n_net c); cbn [early negb b2n] in *; try discriminate K5; auto. contradiction.
  - destruct (K7 eq_refl) as (_ & _ & X & _). destruct (n_net c); cbn [is_pend b2n] in *; try contradiction; auto; [lia|]. right. right. eauto.
Qed.

Theorem C75_patient_returns : forall n ls s es t i,
  patient n ls -> crun (cst_init n) ls [] = Some (Ok s es) -> nth_error (thr s) t = Some (TDestroy i) -> nets i es = 1 ->
  exists ls2 s2, crun s (ls2 ++ [LFreed t]) es = Some (Ok s2 (es ++ [VFreed i])) /\ Forall (fun l => python l = false) ls2.
Proof.
  intros n ls s es t i P R Ht Hn. pose proof (inv_run _ _ _ R) as I. cbn beta iota in I. destruct (des_conn _ _ _ _ _ I Ht) as (c & Hc & _).
  destruct (destroy_returns _ _ _ _ _ _ I Ht Hc (destroy_net _ _ _ _ _ _ _ P R Ht Hc Hn)) as (ls2 & s2 & X & Y & _). eauto.
Qed.
Print Assumptions C75_patient_returns.

(** For a patient program the callback of a connection that has ended can always
    be called: whoever has the GIL can come to give it up, without any further
    action of the program than that. *)
Lemma crun_snd a b s es s1 es1 o : crun s a es = Some (Ok s1 es1) -> crun s1 b es1 = o -> crun s (a ++ b) es = o.
Proof. intros H <-. now rewrite crun_app, H. Qed.
Lemma one s l es s1 e : cstep s l = Some (Ok s1 e) -> crun s [l] es = Some (Ok s1 (es ++ e)).
Proof. intro H. cbn [crun]. now rewrite H. Qed.
Lemma runs_rel s t es : runs s t = true -> crun s [LRel t] es = Some (Ok {| gil := None; thr := thr s; conns := conns s |} es).
Proof. intro H. cbn [crun cstep]. rewrite H, app_nil_r. reflexivity. Qed.

Lemma free_gil n ls s es i c e : patient n ls -> crun (cst_init n) ls [] = Some (Ok s es) ->
  nth_error (kinds ls) i = Some true -> nth_error (conns s) i = Some c -> (n_net c = NQueued e \/ n_net c = NGil e) -> calls i es = 0 ->
  exists ls2 s2 es2, crun s ls2 es = Some (Ok s2 es2) /\ gil s2 = None /\ nth_error (conns s2) i = Some c.
Proof.
  intros P R Hk Hc Hn C0. pose proof (inv_run _ _ _ R) as I. cbn beta iota in I. destruct (patient_inv _ _ _ _ P R) as [D C].
  destruct (gil s) as [[t|j]|] eqn:G; [| |exists [], s, es; auto].
  - destruct (i_owner _ _ _ I _ G) as [Ht|(j & Ht)].
    + exists [LRel t]. do 2 eexists. split; [apply runs_rel; unfold runs; now rewrite Ht, G, Nat.eqb_refl|]. auto.
    + destruct (Nat.eq_dec j i) as [->|Ne]; [rewrite (C _ _ Ht Hk) in C0; discriminate C0|].
      destruct (des_conn _ _ _ _ _ I Ht) as (d & Hd & Hp). destruct (i_conn _ _ _ I _ _ Hd) as (a & Ha & K).
      assert (X : n_net d = NPending \/ nets j es = 1).
      { destruct K as [_ K2 _ _ _ _ _]. destruct (n_net d); cbn [is_pend b2n] in K2; auto; right; lia. }
      assert (Fin : forall s1 es1 ks1 d1, inv s1 es1 ks1 -> nth_error (thr s1) t = Some (TDestroy j) -> nth_error (conns s1) j = Some d1 ->
                (n_net d1 = NWaking \/ n_net d1 = NReady \/ exists e, n_net d1 = NQueued e /\ n_async d1 = false) -> nth_error (conns s1) i = Some c ->
                exists ls2 s2 es2, crun s1 ls2 es1 = Some (Ok s2 es2) /\ gil s2 = None /\ nth_error (conns s2) i = Some c).
      { intros s1 es1 ks1 d1 I1 Ht1 Hd1 N1 Hc1. destruct (destroy_returns _ _ _ _ _ _ I1 Ht1 Hd1 N1) as (ls2 & s2 & R2 & _ & Hr & Ho & _).
        exists ((ls2 ++ [LFreed t]) ++ [LRel t]). do 2 eexists. split; [eapply crun_snd; [exact R2|apply runs_rel, Hr]|]. cbn [gil conns]. split; [reflexivity|].
        rewrite Ho by congruence. exact Hc1. }
      destruct X as [X|X].
      * assert (Ea : a = false).
        { destruct a; [|reflexivity]. destruct K as [_ _ _ _ K5 _ _]. rewrite (C _ _ Ht Ha), X in K5. discriminate K5. }
        assert (Sn : cstep s (LNet j 0) = Some (Ok (put s (gil s) j (set_net d (NQueued 0))) [VNet j 0])) by (cbn [cstep]; now rewrite Hd, X).
        pose proof (inv_step _ _ _ _ _ I Sn) as I1. cbn beta iota in I1.
        edestruct Fin as (ls2 & s2 & es2 & R2 & G2 & H2); [exact I1| | | | |].
        -- exact Ht.
        -- cbn [put conns]. apply upd_same. now apply nth_lt in Hd.
        -- right. right. exists 0. split; [reflexivity|]. cbn [set_net n_async]. destruct K as [K1 _ _ _ _ _ _]. congruence.
        -- cbn [put conns]. rewrite upd_other by congruence. exact Hc.
        -- exists ([LNet j 0] ++ ls2), s2, es2. split; [eapply crun_snd; [apply one, Sn|exact R2]|]. auto.
      * eapply Fin; eauto. eapply destroy_net; eauto.
  - destruct (i_work _ _ _ I _ G) as (d & x & Hd & Nd). assert (Ne : j <> i) by (intros ->; rewrite Hc in Hd; injection Hd as <-; destruct Hn; congruence).
    exists [LCall j true]. do 2 eexists. split; [apply one; cbn [cstep]; rewrite Hd, G, Nat.eqb_refl, Nd; reflexivity|]. cbn [put gil conns].
    split; [reflexivity|]. rewrite upd_other by congruence. exact Hc.
Qed.

Theorem C75_callback : forall n ls s es i,
  patient n ls -> crun (cst_init n) ls [] = Some (Ok s es) -> nth_error (kinds ls) i = Some true -> nets i es = 1 ->
  exists ls2 s2 es2, crun s ls2 es = Some (Ok s2 es2) /\ calls i es2 = 1.
Proof.
  intros n ls s es i P R Hk Hn. pose proof (inv_run _ _ _ R) as I. cbn beta iota in I.
  destruct (nth_error (conns s) i) as [c|] eqn:Hc; [|apply nth_error_None in Hc; rewrite <- (i_len _ _ _ I) in Hc; apply nth_error_None in Hc; congruence].
  pose proof (net_of _ _ _ _ _ _ I Hc Hk) as K. pose proof K as [K1 K2 K3 K4 K5 K6 K7].
  assert (Hold : forall s1 es1 d x, gil s1 = Some (OWork i) -> nth_error (conns s1) i = Some d -> n_net d = NHold x ->
            exists s2 e2, crun s1 [LCall i true] es1 = Some (Ok s2 (es1 ++ e2)) /\ calls i e2 = 1).
  { intros s1 es1 d x G1 H1 N1. do 2 eexists. split; [apply one; cbn [cstep]; rewrite H1, G1, Nat.eqb_refl, N1; reflexivity|].
    unfold calls. cbn [sumw map fold_right list_sum]. cbn. now rewrite Nat.eqb_refl. }
  assert (Gil : forall s1 es1 d x, gil s1 = None -> nth_error (conns s1) i = Some d -> n_net d = NGil x ->
            exists s2 e2, crun s1 [LGil i; LCall i true] es1 = Some (Ok s2 (es1 ++ e2)) /\ calls i e2 = 1).
  { intros s1 es1 d x G1 H1 N1. change [LGil i; LCall i true] with ([LGil i] ++ [LCall i true]).
    edestruct Hold as (s2 & e2 & R2 & C2); [| | |exists s2, e2; split; [eapply crun_snd; [apply one; cbn [cstep]; rewrite H1, G1, N1; reflexivity|rewrite app_nil_r; exact R2]|exact C2]].
    - reflexivity.
    - cbn [put conns]. apply upd_same. now apply nth_lt in H1.
    - reflexivity. }
  assert (Cnt : forall s1 es1, (exists ls2, crun s ls2 es = Some (Ok s1 es1)) -> calls i es1 <= 1).
  { intros s1 es1 (ls2 & R2). assert (R3 : crun (cst_init n) (ls ++ ls2) [] = Some (Ok s1 es1)) by (eapply crun_snd; eauto).
    pose proof (inv_run _ _ _ R3) as I3. cbn beta iota in I3. destruct (nth_error (conns s1) i) as [c1|] eqn:H1.
    - destruct (i_conn _ _ _ I3 _ _ H1) as (a & _ & [_ _ _ _ X _ _]). rewrite X. destruct a; [destruct (early (n_net c1)); cbn; lia|lia].
    - apply nth_error_None in H1. destruct (i_none _ _ _ I3 _ H1) as (_ & _ & X & _). lia. }
  assert (End : forall ls2 s1 e2, crun s ls2 es = Some (Ok s1 e2) -> 1 <= calls i e2 -> exists ls2 s2 es2, crun s ls2 es = Some (Ok s2 es2) /\ calls i es2 = 1).
  { intros ls2 s1 e2 R2 C2. exists ls2, s1, e2. split; [exact R2|]. specialize (Cnt _ _ (ex_intro _ _ R2)). lia. }
  destruct (early (n_net c)) eqn:Ea; [|apply (End [] s es eq_refl); rewrite K5; cbn; lia].
  destruct (n_net c) as [|x|x|x| | |] eqn:N; try discriminate Ea; [cbn in K2; lia| | |].
  - destruct (free_gil _ _ _ _ _ _ x P R Hk Hc (or_introl N) K5) as (la & s1 & es1 & R1 & G1 & H1).
    assert (R3 : crun (cst_init n) (ls ++ la) [] = Some (Ok s1 es1)) by (eapply crun_snd; eauto).
    pose proof (inv_run _ _ _ R3) as I3. cbn beta iota in I3.
    assert (Go : gone c = false). { unfold gone. destruct (n_py c) eqn:Hp; auto. discriminate (K4 eq_refl). }
    assert (St : cstep s1 (LHandle i) = Some (Ok (put s1 (gil s1) i (set_net c (NGil x))) [])).
    { cbn [cstep]. rewrite H1, N, Go, K1. reflexivity. }
    destruct (Gil (put s1 (gil s1) i (set_net c (NGil x))) (es1 ++ []) (set_net c (NGil x)) x) as (s2 & e2 & R2 & C2).
    + exact G1.
    + cbn [put conns]. apply upd_same. now apply nth_lt in H1.
    + reflexivity.
    + apply (End (la ++ [LHandle i] ++ [LGil i; LCall i true]) s2 ((es1 ++ []) ++ e2)).
      * eapply crun_snd; [exact R1|]. eapply crun_snd; [apply one, St|exact R2].
      * rewrite calls_app. lia.
  - destruct (free_gil _ _ _ _ _ _ x P R Hk Hc (or_intror N) K5) as (la & s1 & es1 & R1 & G1 & H1).
    destruct (Gil s1 es1 c x G1 H1 N) as (s2 & e2 & R2 & C2). apply (End (la ++ [LGil i; LCall i true]) s2 (es1 ++ e2)).
    + eapply crun_snd; eauto.
    + rewrite calls_app. lia.
  - destruct (Hold s es c x (i_hold _ _ _ I _ _ _ Hc N) Hc N) as (s2 & e2 & R2 & C2). apply (End [LCall i true] s2 (es ++ e2) R2). rewrite calls_app. lia.
Qed.
Print Assumptions C75_callback.

(** ** What the code does not give *)

(** A thread in the destructor of a stream keeps the GIL until the writer sets
    [need_wakeup].  As long as that needs something that cannot happen, no Python
    code runs and no destructor returns. *)
Definition stuck (s : cst) (t i : nat) (no : clab -> Prop) : Prop :=
  gil s = Some (OPy t) /\ nth_error (thr s) t = Some (TDestroy i) /\
  exists c, nth_error (conns s) i = Some c /\ n_net c <> NReady /\ n_net c <> NWaking /\
    (forall e, n_net c = NQueued e -> n_async c = true) /\ (n_net c = NPending -> n_async c = true \/ forall e, no (LNet i e)).

Lemma stuck_step s es ks l s' e t i no : inv s es ks -> stuck s t i no -> ~ no l -> cstep s l = Some (Ok s' e) -> python l = false /\ stuck s' t i no.
Proof.
  intros I (G & Ht & c & Hc & N1 & N2 & N3 & N4) Hno R.
  assert (Rn : forall u, runs s u = false).
  { intro u. destruct (runs s u) eqn:E; [|reflexivity]. apply runs_eq in E as [E1 E2]. rewrite G in E2. injection E2 as <-. congruence. }
  assert (Other : forall j d, j <> i -> stuck (put s (gil s) j d) t i no).
  { intros j d Ne. split; [exact G|]. split; [exact Ht|]. exists c. cbn [put conns]. rewrite upd_other by congruence. auto. }
  assert (Same : forall d, n_net d <> NReady -> n_net d <> NWaking -> (forall e, n_net d = NQueued e -> n_async d = true) -> n_net d <> NPending ->
            stuck (put s (gil s) i d) t i no).
  { intros d D1 D2 D3 D4. split; [exact G|]. split; [exact Ht|]. exists d. cbn [put conns]. rewrite upd_same by now apply nth_lt in Hc. repeat split; auto; contradiction. }
  destruct l as [u|u|u a|u j|u j|u|u|u|j y|j|j|j ok|j]; cbn [cstep] in R; rewrite ?Rn in R; try discriminate R.
  - rewrite G in R. destruct (nth_error (thr s) u) as [[| |]|]; discriminate R.
  - destruct (nth_error (thr s) u) as [[|j|j]|] eqn:Hu; try discriminate. pose proof (i_holds _ _ _ I _ _ Hu) as X. rewrite G in X. injection X as <-.
    rewrite Ht in Hu. injection Hu as <-. rewrite Hc in R. destruct (n_net c); try discriminate R. now contradiction N1.
  - rewrite G in R. destruct (nth_error (thr s) u) as [[| |]|]; discriminate R.
  - rewrite G in R. destruct (nth_error (thr s) u) as [[| |]|]; discriminate R.
  - destruct (nth_error (conns s) j) as [d|] eqn:Hd; [|discriminate]. destruct (n_net d) eqn:Nd; try discriminate. injection R as <- <-. split; [reflexivity|].
    destruct (Nat.eq_dec j i) as [->|Ne]; [|auto]. rewrite Hc in Hd. injection Hd as <-. destruct (N4 Nd) as [A|A]; [|now contradiction (A y)]. apply Same; cbn [set_net n_net n_async]; auto; discriminate.
  - destruct (nth_error (conns s) j) as [d|] eqn:Hd; [|discriminate]. destruct (n_net d) eqn:Nd; try discriminate. destruct (gone d); [discriminate|]. injection R as <- <-. split; [reflexivity|].
    destruct (Nat.eq_dec j i) as [->|Ne]; [|auto]. rewrite Hc in Hd. injection Hd as <-. rewrite (N3 _ Nd). apply Same; cbn [set_net n_net n_async]; discriminate.
  - rewrite G in R. destruct (nth_error (conns s) j); discriminate R.
  - rewrite G in R. destruct (nth_error (conns s) j); discriminate R.
  - destruct (nth_error (conns s) j) as [d|] eqn:Hd; [|discriminate]. destruct (n_net d) eqn:Nd; try discriminate. destruct (gone d); [discriminate|]. injection R as <- <-. split; [reflexivity|].
    destruct (Nat.eq_dec j i) as [->|Ne]; [|auto]. rewrite Hc in Hd. injection Hd as <-. now contradiction N2.
Qed.

Lemma stuck_run n ls t i no : forall ls2 s es s2 es2, crun (cst_init n) ls [] = Some (Ok s es) -> stuck s t i no -> Forall (fun l => ~ no l) ls2 ->
  crun s ls2 es = Some (Ok s2 es2) -> Forall (fun l => python l = false) ls2 /\ stuck s2 t i no.
Proof.
  intros ls2. induction ls2 as [|l ls2 IH] using rev_ind; intros s es s2 es2 R S No R2; [injection R2 as <- <-; split; [constructor|exact S]|].
  rewrite crun_app in R2. destruct (crun s ls2 es) as [[s1 es1|]|] eqn:E; try discriminate. apply Forall_app in No as [No1 No2].
  destruct (IH _ _ _ _ R S No1 E) as [F1 S1]. assert (R3 : crun (cst_init n) (ls ++ ls2) [] = Some (Ok s1 es1)) by (eapply crun_snd; eauto).
  pose proof (inv_run _ _ _ R3) as I3. cbn beta iota in I3. cbn [crun] in R2. destruct (cstep s1 l) as [[s3 e|]|] eqn:St; try discriminate. injection R2 as <- <-.
  inversion No2; subst. destruct (stuck_step _ _ _ _ _ _ _ _ _ I3 S1 H1 St) as [Pl S3]. split; [|exact S3]. apply Forall_app. auto.
Qed.

(** A callback that raised (its loop is closed) leaves its writer dead. *)
Lemma dead_step s es ks l s' e i c : inv s es ks -> cstep s l = Some (Ok s' e) -> nth_error (conns s) i = Some c -> n_net c = NDead ->
  exists c', nth_error (conns s') i = Some c' /\ n_net c' = NDead.
Proof.
  intros I R Hc N.
  assert (U : forall j d d0, nth_error (conns s) j = Some d0 -> (n_net d0 = NDead -> n_net d = NDead) ->
            exists c', nth_error (upd (conns s) j d) i = Some c' /\ n_net c' = NDead).
  { intros j d d0 H0 Hd. destruct (Nat.eq_dec i j) as [->|Ne].
    - exists d. rewrite upd_same by now apply nth_lt in H0. rewrite Hc in H0. injection H0 as <-. auto.
    - exists c. rewrite upd_other by congruence. auto. }
  destruct l as [t|t|t a|t j|t j|t|t|t|j y|j|j|j ok|j]; cbn [cstep] in R.
  - destruct (nth_error (thr s) t) as [[| |]|]; try discriminate. destruct (gil s); [discriminate|]. injection R as <- <-. eauto.
  - destruct (runs s t); [|discriminate]. injection R as <- <-. eauto.
  - destruct (runs s t); [|discriminate]. injection R as <- <-. exists c. cbn [conns]. rewrite nth_error_app1 by now apply nth_lt in Hc. auto.
  - destruct (runs s t); [|discriminate]. destruct (nth_error (conns s) j) as [d|] eqn:Hj; [|discriminate]. destruct (n_fut d); try discriminate.
    injection R as <- <-. eapply U; [exact Hj|]. auto.
  - destruct (runs s t); [|discriminate]. destruct (nth_error (conns s) j) as [d|] eqn:Hj; [|discriminate]. destruct (n_py d); try discriminate.
    injection R as <- <-. eapply U; [exact Hj|]. auto.
  - destruct (nth_error (thr s) t) as [[|j|j]|]; try discriminate. destruct (nth_error (conns s) j) as [d|] eqn:Hj; [|discriminate]. destruct (n_net d) eqn:Hz; try discriminate.
    injection R as <- <-. eapply U; [exact Hj|]. auto.
  - destruct (nth_error (thr s) t) as [[|j|j]|]; try discriminate. destruct (gil s); [discriminate|]. destruct (nth_error (conns s) j) as [d|] eqn:Hj; [|discriminate].
    destruct (n_sem d); [discriminate|]. injection R as <- <-. destruct (n_ec d =? 0); (eapply U; [exact Hj|]; auto).
  - destruct (nth_error (thr s) t) as [[|j|j]|]; try discriminate. destruct (gil s); [discriminate|]. destruct (nth_error (conns s) j) as [d|] eqn:Hj; [|discriminate].
    injection R as <- <-. eapply U; [exact Hj|]. auto.
  - destruct (nth_error (conns s) j) as [d|] eqn:Hj; [|discriminate]. destruct (n_net d) eqn:Nd; try discriminate. injection R as <- <-. eapply U; [exact Hj|]. congruence.
  - destruct (nth_error (conns s) j) as [d|] eqn:Hj; [|discriminate]. destruct (n_net d) eqn:Nd; try discriminate. destruct (gone d); [discriminate|]. injection R as <- <-.
    eapply U; [exact Hj|]. congruence.
  - destruct (nth_error (conns s) j) as [d|] eqn:Hj; [|discriminate]. destruct (gil s); [discriminate|]. destruct (n_net d) eqn:Nd; try discriminate. injection R as <- <-. eapply U; [exact Hj|]. congruence.
  - destruct (nth_error (conns s) j) as [d|] eqn:Hj; [|discriminate]. destruct (gil s) as [[|i']|]; try discriminate. destruct (i' =? j); [|discriminate].
    destruct (n_net d) eqn:Nd; try discriminate. injection R as <- <-. eapply U; [exact Hj|]. congruence.
  - destruct (nth_error (conns s) j) as [d|] eqn:Hj; [|discriminate]. destruct (n_net d) eqn:Nd; try discriminate. destruct (gone d); [discriminate|]. injection R as <- <-.
    eapply U; [exact Hj|]. congruence.
Qed.
Lemma dead_run n ls s es i : crun (cst_init n) ls [] = Some (Ok s es) -> In (LCall i false) ls -> exists c, nth_error (conns s) i = Some c /\ n_net c = NDead.
Proof.
  revert s es. induction ls as [|l ls IH] using rev_ind; intros s es R H; [destruct H|].
  rewrite crun_app in R. destruct (crun (cst_init n) ls []) as [[s1 es1|]|] eqn:E; try discriminate. pose proof (inv_run _ _ _ E) as I. cbn beta iota in I.
  cbn [crun] in R. destruct (cstep s1 l) as [[s2 e|]|] eqn:St; try discriminate. injection R as <- <-. apply in_app_or in H as [H|[->|[]]].
  - destruct (IH _ _ eq_refl H) as (c & Hc & N). eapply dead_step; eauto.
  - cbn [cstep] in St. destruct (nth_error (conns s1) i) as [d|] eqn:Hj; [|discriminate]. destruct (gil s1) as [[|i']|]; try discriminate. destruct (i' =? i); [|discriminate].
    destruct (n_net d); try discriminate. injection St as <- <-. eexists. cbn [put conns]. rewrite upd_same by now apply nth_lt in Hj. split; reflexivity.
Qed.

(** F47: the last reference to an asynchronous stream goes while its connection
    is being made (a task that waits in [connect] is cancelled, or
    [asyncio.wait_for] times out), or after its callback has raised: from then on,
    whatever happens, no Python code runs in the process. *)
Theorem C75_cancel_refuted : forall n ls t i s es ls2 s2 es2,
  crun (cst_init n) (ls ++ [LDrop t i]) [] = Some (Ok s es) -> nth_error (kinds ls) i = Some true ->
  calls i es = 0 \/ In (LCall i false) ls ->
  crun s ls2 es = Some (Ok s2 es2) -> Forall (fun l => python l = false) ls2 /\ nth_error (thr s2) t = Some (TDestroy i).
Proof.
  intros n ls t i s es ls2 s2 es2 R Hk Hd R2. pose proof (inv_run _ _ _ R) as I. cbn beta iota in I.
  assert (Ht : nth_error (thr s) t = Some (TDestroy i)).
  { rewrite crun_app in R. destruct (crun (cst_init n) ls []) as [[s1 es1|]|]; try discriminate. cbn [crun cstep] in R. destruct (runs s1 t) eqn:Hr; [|discriminate].
    destruct (nth_error (conns s1) i) as [d|]; [|discriminate]. destruct (n_py d); try discriminate. injection R as <- <-. cbn [put_thr thr]. apply runs_eq in Hr as [Hr _].
    rewrite upd_same by now apply nth_lt in Hr. reflexivity. }
  assert (Hk2 : nth_error (kinds (ls ++ [LDrop t i])) i = Some true) by (rewrite kinds_app, nth_error_app1; [exact Hk|now apply nth_lt in Hk]).
  destruct (des_conn _ _ _ _ _ I Ht) as (c & Hc & Hp). pose proof (net_of _ _ _ _ _ _ I Hc Hk2) as [K1 K2 K3 K4 K5 K6 K7].
  assert (S : stuck s t i (fun _ => False)).
  { split; [exact (i_holds _ _ _ I _ _ Ht)|]. split; [exact Ht|]. exists c. split; [exact Hc|]. destruct Hd as [Hd|Hd].
    - rewrite Hd in K5. repeat split; auto; intro X; rewrite X in K5; discriminate K5.
    - destruct (dead_run _ _ _ _ i R) as (d & H2 & N2); [apply in_or_app; auto|]. rewrite Hc in H2. injection H2 as <-. rewrite N2. repeat split; auto; discriminate. }
  assert (No : Forall (fun l : clab => ~ False) ls2) by (apply Forall_forall; auto).
  destruct (stuck_run _ _ _ _ _ ls2 _ _ _ _ R S No R2) as [F (_ & X & _)]. auto.
Qed.
Print Assumptions C75_cancel_refuted.

(** F48: a synchronous constructor that is interrupted destroys the stream with
    the GIL held: until the attempt to connect ends, no Python code runs. *)
Theorem C75_interrupt_refuted : forall n ls t i s es ls2 s2 es2,
  crun (cst_init n) ls [] = Some (Ok s es) -> nth_error (thr s) t = Some (TDestroy i) -> nets i es = 0 ->
  Forall (fun l => forall e, l <> LNet i e) ls2 ->
  crun s ls2 es = Some (Ok s2 es2) -> Forall (fun l => python l = false) ls2 /\ nth_error (thr s2) t = Some (TDestroy i).
Proof.
  intros n ls t i s es ls2 s2 es2 R Ht Hn Hl R2. pose proof (inv_run _ _ _ R) as I. cbn beta iota in I. destruct (des_conn _ _ _ _ _ I Ht) as (c & Hc & Hp).
  destruct (i_conn _ _ _ I _ _ Hc) as (a & _ & [_ K2 _ _ _ _ _]).
  assert (N : n_net c = NPending) by (destruct (n_net c); cbn [is_pend b2n] in K2; auto; lia).
  assert (S : stuck s t i (fun l => exists e, l = LNet i e)).
  { split; [exact (i_holds _ _ _ I _ _ Ht)|]. split; [exact Ht|]. exists c. split; [exact Hc|]. rewrite N. repeat split; try discriminate. intros _. right. eauto. }
  assert (No : Forall (fun l => ~ exists e, l = LNet i e) ls2) by (eapply Forall_impl; [|exact Hl]; intros l Hx (e & ->); now apply (Hx e)).
  destruct (stuck_run _ _ _ _ _ ls2 _ _ _ _ R S No R2) as [F (_ & X & _)]. auto.
Qed.
Print Assumptions C75_interrupt_refuted.

(** ** Examples *)

(** Two threads; thread 0 connects synchronously while thread 1 connects
    asynchronously and gets an error. *)
Definition ex_ls : list clab :=
  [LAcq 0; LOpen 0 false; LAcq 1; LOpen 1 true; LRel 1; LNet 1 111; LHandle 1; LGil 1; LNet 0 0; LHandle 0; LCall 1 true; LSem 0; LWakeup 1; LRel 0;
   LAcq 1; LLoop 1 1; LDrop 1 1; LFreed 1].
Example C75_ex : exists s, crun (cst_init 2) ex_ls [] = Some (Ok s [VNet 1 111; VNet 0 0; VCall 1 111; VOpen 0 0; VOpen 1 111; VFreed 1])
  /\ opens 1 [VNet 1 111; VNet 0 0; VCall 1 111; VOpen 0 0; VOpen 1 111; VFreed 1] = 1.
Proof. eexists. split; vm_compute; reflexivity. Qed.

Lemma patient_check n ls :
  forallb (fun l => match l with LCall _ false => false | _ => true end) ls = true ->
  (forall k t i s es, nth_error ls k = Some (LDrop t i) -> crun (cst_init n) (firstn k ls) [] = Some (Ok s es) ->
     nth_error (kinds (firstn k ls)) i = Some true -> calls i es = 1) -> patient n ls.
Proof.
  intros H1 H2. split.
  - intros i Hi. rewrite forallb_forall in H1. specialize (H1 _ Hi). discriminate H1.
  - intros l1 l2 t i s es -> R K. eapply (H2 (length l1)); [|rewrite firstn_app, Nat.sub_diag, firstn_all, app_nil_r; exact R|rewrite firstn_app, Nat.sub_diag, firstn_all, app_nil_r; exact K].
    rewrite nth_error_app2, Nat.sub_diag by lia. reflexivity.
Qed.
(** It is patient; and an interrupted constructor is destroyed once the attempt ends. *)
Example C75_ex_patient : patient 2 ex_ls.
Proof.
  apply patient_check; [reflexivity|]. intros k t i s es Hk R K. do 16 (destruct k as [|k]; [discriminate Hk|]).
  destruct k as [|k]; [|do 2 (destruct k as [|k]; [discriminate Hk|]); destruct k; discriminate Hk].
  injection Hk as <- <-. vm_compute in R. injection R as <- <-. reflexivity.
Qed.
Example C75_ex_returns : patient 1 [LAcq 0; LOpen 0 false; LIntr 0; LNet 0 110] /\
  exists s, crun (cst_init 1) [LAcq 0; LOpen 0 false; LIntr 0; LNet 0 110] [] = Some (Ok s [VIntr 0; VNet 0 110]) /\
    nth_error (thr s) 0 = Some (TDestroy 0) /\ nets 0 [VIntr 0; VNet 0 110] = 1.
Proof.
  split.
  - apply patient_check; [reflexivity|]. intros k t i s es Hk. do 4 (destruct k as [|k]; [discriminate Hk|]). destruct k; discriminate Hk.
  - eexists. split; [vm_compute; reflexivity|]. split; reflexivity.
Qed.
(** A connection whose handler waits for the GIL. *)
Example C75_ex_callback : patient 1 [LAcq 0; LOpen 0 true; LNet 0 0; LHandle 0] /\
  exists s, crun (cst_init 1) [LAcq 0; LOpen 0 true; LNet 0 0; LHandle 0] [] = Some (Ok s [VNet 0 0]) /\ calls 0 [VNet 0 0] = 0.
Proof.
  split.
  - apply patient_check; [reflexivity|]. intros k t i s es Hk. do 4 (destruct k as [|k]; [discriminate Hk|]). destruct k; discriminate Hk.
  - eexists. split; [vm_compute; reflexivity|]. reflexivity.
Qed.
(** A cancelled [connect], and one whose loop was closed. *)
Example C75_ex_cancel : exists s, crun (cst_init 2) ([LAcq 0; LOpen 0 true] ++ [LDrop 0 0]) [] = Some (Ok s []) /\ calls 0 [] = 0
  /\ exists s2, crun s [LNet 0 0; LHandle 0] [] = Some (Ok s2 [VNet 0 0]) /\ (forall l, cstep s2 l = None).
Proof.
  eexists. split; [vm_compute; reflexivity|]. split; [reflexivity|]. eexists. split; [vm_compute; reflexivity|].
  intros [[|[|[|t]]]|[|[|[|t]]]|[|[|[|t]]] a|[|[|[|t]]] j|[|[|[|t]]] j|[|[|[|t]]]|[|[|[|t]]]|[|[|[|t]]]|[|[|j]] y|[|[|j]]|[|[|j]]|[|[|j]] ok|[|[|j]]]; reflexivity.
Qed.
Example C75_ex_closed : exists s, crun (cst_init 1) ([LAcq 0; LOpen 0 true; LRel 0; LNet 0 0; LHandle 0; LGil 0; LCall 0 false; LAcq 0] ++ [LDrop 0 0]) []
  = Some (Ok s [VNet 0 0; VCall 0 0]).
Proof. eexists. vm_compute. reflexivity. Qed.
Example C75_ex_interrupt : exists s, crun (cst_init 2) [LAcq 0; LOpen 0 false; LIntr 0] [] = Some (Ok s [VIntr 0]) /\ nth_error (thr s) 0 = Some (TDestroy 0)
  /\ cstep s (LAcq 1) = None.
Proof. eexists. split; [vm_compute; reflexivity|]. split; reflexivity. Qed.
