(** C67: the semaphores are counters. *)
From Coq Require Import List Arith Bool Lia.
From Verif Require Import ConcBase SemModel SemSpec.
Import ListNotations.

Definition pcok (k : kind) (o : sop) (p : spc) : Prop :=
  match p with
  | APut => o = Put
  | GLoad => o = Get /\ k = Spin
  | GCas c => o = Get /\ k = Spin /\ c <> 0
  | GWait => o = Get /\ k = Posix
  | GPoll | GRead => o = Get /\ (k = Pipe \/ k = Eventfd)
  | TLoad => o = TryGet /\ k = Spin
  | TCas c => o = TryGet /\ k = Spin /\ c <> 0
  | TTry => o = TryGet /\ k = Posix
  | TRead => o = TryGet /\ (k = Pipe \/ k = Eventfd)
  end.
Lemma pcok_start k o : pcok k o (sem_start k o).
Proof. destruct o, k; cbn; auto. Qed.

Lemma sem_step_ok k lim o e v p : pcok k o p -> v <= lim ->
  match sem_step k lim e v p with
  | SBlock => True
  | SMove p' => pcok k o p'
  | SRet v' Zero => match o with Put => (v' = S v /\ v < lim) \/ (k = Spin /\ v = lim /\ v' = 0) | _ => v = S v' end
  | SRet v' _ => v' = v
  end.
Proof.
  intros H L. destruct p, e; cbn [sem_step pcok] in *; try exact I; try tauto.
  - subst o. destruct k; destruct (Nat.ltb_spec v lim) as [X|X]; auto. right. repeat split; lia.
  - destruct k; cbn [pcok]; auto.
  - destruct (Nat.eqb_spec v 0) as [E|E]; cbn [pcok]; tauto.
  - destruct (Nat.eqb_spec v cur) as [E|E]; cbn [andb].
    + destruct H as (-> & _ & H). lia.
    + destruct (Nat.eqb_spec v 0) as [E0|E0]; cbn [pcok]; tauto.
  - rewrite andb_false_r. destruct (Nat.eqb_spec v 0) as [E0|E0]; cbn [pcok]; tauto.
  - destruct (Nat.eqb_spec v 0) as [E|E]; [exact I|]. destruct H as [-> _]. lia.
  - destruct (Nat.eqb_spec v 0) as [E|E]; cbn [pcok]; [exact I|tauto].
  - destruct (Nat.eqb_spec v 0) as [E|E]; cbn [pcok]; [tauto|]. destruct H as [-> _]. lia.
  - destruct (Nat.eqb_spec v 0) as [E|E]; cbn [pcok]; [reflexivity|tauto].
  - destruct (Nat.eqb_spec v cur) as [E|E]; [|reflexivity]. destruct H as (-> & _ & H). lia.
  - destruct (Nat.eqb_spec v 0) as [E|E]; [reflexivity|]. destruct H as [-> _]. lia.
  - destruct (Nat.eqb_spec v 0) as [E|E]; [reflexivity|]. destruct H as [-> _]. lia.
  - destruct k; reflexivity.
Qed.

Definition ok (k : kind) (lim : nat) (s : sem) : Prop :=
  s_v s <= lim /\ forall t o p, nth_error (s_th s) t = Some (Some (o, p)) -> pcok k o p.
Lemma ok_init k lim v n : v <= lim -> ok k lim (sem_init v n).
Proof.
  intro H. split; [exact H|]. intros t o p Ht. cbn [sem_init s_th] in Ht. apply nth_error_In in Ht. apply repeat_spec in Ht. discriminate.
Qed.
Lemma ok_upd k (l : list (option (sop * spc))) t x : (forall t' o p, nth_error l t' = Some (Some (o, p)) -> pcok k o p) ->
  (forall o p, x = Some (o, p) -> pcok k o p) -> forall t' o p, nth_error (upd l t x) t' = Some (Some (o, p)) -> pcok k o p.
Proof.
  intros H Hx t' o p. rewrite nth_upd. destruct (Nat.eqb t' t); [|apply H]. destruct (t <? length l); [|discriminate].
  intro E. injection E as E. now apply Hx.
Qed.
(** Effect of one step on the value. *)
Definition delta (k : kind) (lim v v' : nat) (ev : list sevent) : Prop :=
  (ev = [] /\ v' = v) \/
  exists t o, ev = [ECallS t o] /\ v' = v \/
  exists r, ev = [ERetS t o r] /\
    match r with
    | Zero => match o with Put => (v' = S v /\ v < lim) \/ (k = Spin /\ v = lim /\ v' = 0) | _ => v = S v' end
    | _ => v' = v
    end.
Lemma next_ok k lim s l s' ev : ok k lim s -> sem_next k lim s l = Some (s', ev) -> ok k lim s' /\ delta k lim (s_v s) (s_v s') ev.
Proof.
  intros [L HP] H. destruct l as [t o|t e]; cbn [sem_next] in H.
  - destruct (nth_error (s_th s) t) as [[]|] eqn:Ht; try discriminate. injection H as <- <-. split.
    + split; [exact L|]. cbn [s_th]. apply ok_upd; [exact HP|]. intros o' p' E. injection E as <- <-. apply pcok_start.
    + right. exists t, o. left. auto.
  - destruct (nth_error (s_th s) t) as [[[o p]|]|] eqn:Ht; try discriminate.
    pose proof (sem_step_ok k lim o e (s_v s) p (HP _ _ _ Ht) L) as X. destruct (sem_step k lim e (s_v s) p) as [|p'|v' r] eqn:E; [discriminate| |]; injection H as <- <-.
    + split; [|left; auto]. split; [exact L|]. cbn [s_th]. apply ok_upd; [exact HP|]. intros o' q E'. injection E' as <- <-. exact X.
    + split.
      * split; [|cbn [s_th]; apply ok_upd; [exact HP|intros; discriminate]]. cbn [s_v]. destruct r; [destruct o; lia|lia|lia].
      * right. exists t, o. right. exists r. split; [reflexivity|]. cbn [s_v]. destruct r; auto.
Qed.
Lemma sem_run_app k lim ls : forall s ls', sem_run k lim s (ls ++ ls') =
  match sem_run k lim s ls with None => None | Some (s1, ev) => match sem_run k lim s1 ls' with None => None | Some (s2, ev') => Some (s2, ev ++ ev') end end.
Proof.
  induction ls as [|l ls IH]; intros s ls'; cbn [app sem_run]. { destruct (sem_run k lim s ls') as [[]|]; reflexivity. }
  destruct (sem_next k lim s l) as [[s1 ev]|]; [|reflexivity]. rewrite IH. destruct (sem_run k lim s1 ls) as [[s2 ev2]|]; [|reflexivity].
  destruct (sem_run k lim s2 ls') as [[s3 ev3]|]; [|reflexivity]. now rewrite app_assoc.
Qed.
Lemma puts_app a b : puts (a ++ b) = puts a + puts b.
Proof. unfold puts. now rewrite filter_app, app_length. Qed.
Lemma gets_app a b : gets (a ++ b) = gets a + gets b.
Proof. unfold gets. now rewrite filter_app, app_length. Qed.
Lemma run_ok k lim ls : forall s s' tr, ok k lim s -> sem_run k lim s ls = Some (s', tr) ->
  ok k lim s' /\ exists q, s_v s' + gets tr + q * S lim = s_v s + puts tr /\ (k <> Spin -> q = 0).
Proof.
  induction ls as [|l ls IH]; intros s s' tr HO H; cbn [sem_run] in H.
  - injection H as <- <-. split; [exact HO|]. exists 0. cbn. split; [lia|auto].
  - destruct (sem_next k lim s l) as [[s1 ev]|] eqn:E1; [|discriminate]. destruct (sem_run k lim s1 ls) as [[s2 ev2]|] eqn:E2; [|discriminate]. injection H as <- <-.
    destruct (next_ok _ _ _ _ _ _ HO E1) as [HO1 D]. destruct (IH _ _ _ HO1 E2) as (HO2 & q & Q & Q0). split; [exact HO2|]. rewrite puts_app, gets_app.
    destruct D as [[-> D]|(t & o & [[-> D]|(r & -> & D)])].
    + exists q. cbn. split; [lia|exact Q0].
    + exists q. cbn. split; [lia|exact Q0].
    + destruct r; [|exists q; destruct o; cbn; (split; [lia|exact Q0])..].
      destruct o; cbn.
      * destruct D as [[D _]|(-> & D & D')]; [exists q; split; [lia|exact Q0]|]. exists (S q). split; [lia|congruence].
      * exists q. split; [lia|exact Q0].
      * exists q. split; [lia|exact Q0].
Qed.

(** ** The value is the number of puts less the number of successful gets *)
(** At every moment of every execution; [q] counts how often a semaphore_spin
    has wrapped round (never, if the puts do not exceed its range). *)
Theorem C67_counter : forall k lim v n ls s tr, v <= lim -> sem_run k lim (sem_init v n) ls = Some (s, tr) ->
  s_v s <= lim /\ gets tr <= v + puts tr /\
  (k <> Spin \/ v + puts tr <= lim -> s_v s + gets tr = v + puts tr) /\
  exists q, s_v s + gets tr + q * S lim = v + puts tr.
Proof.
  intros k lim v n ls s tr L H. destruct (run_ok _ _ _ _ _ _ (ok_init k lim v n L) H) as ([HL _] & q & Q & Q0). cbn [sem_init s_v] in Q.
  split; [exact HL|]. split; [lia|]. split; [|exists q; exact Q]. intros [X|X].
  - rewrite (Q0 X) in Q. lia.
  - destruct q; [lia|]. cbn [Nat.mul] in Q. lia.
Qed.
Print Assumptions C67_counter.

(** ** What a call returns *)
Theorem C67_results : forall k lim v n ls s tr t e s' o r, v <= lim -> sem_run k lim (sem_init v n) ls = Some (s, tr) ->
  sem_next k lim s (SStep t e) = Some (s', [ERetS t o r]) ->
  match o, r with
  | Put, Zero => s_v s' = S (s_v s) \/ (k = Spin /\ s_v s = lim /\ s_v s' = 0)
  | (Get | TryGet), Zero => s_v s = S (s_v s')
  | Put, Minus => False
  | Get, Minus => s_v s' = s_v s /\ e = Interrupted /\ k <> Spin
  | TryGet, Minus => s_v s' = s_v s /\ (s_v s = 0 \/ (e = Interrupted /\ (k = Posix \/ k = Eventfd)) \/ k = Spin)
  | Put, Throw => s_v s' = s_v s /\ ((k = Eventfd /\ e = Interrupted) \/ ((k = Posix \/ k = Eventfd) /\ s_v s = lim))
  | Get, Throw => s_v s' = s_v s /\ e = Interrupted /\ (k = Pipe \/ k = Eventfd)
  | TryGet, Throw => s_v s' = s_v s /\ e = Interrupted /\ k = Pipe
  end.
Proof.
  intros k lim v n ls s tr t e s' o r L H HN. destruct (run_ok _ _ _ _ _ _ (ok_init k lim v n L) H) as ([HL HP] & _).
  cbn [sem_next] in HN. destruct (nth_error (s_th s) t) as [[[o' p]|]|] eqn:Ht; try discriminate. specialize (HP _ _ _ Ht).
  destruct (sem_step k lim e (s_v s) p) as [|p'|v' r'] eqn:E; try discriminate. injection HN as <- <- <-. cbn [s_v].
  pose proof (sem_step_ok k lim o' e (s_v s) p HP HL) as X. rewrite E in X.
  destruct p, e; cbn [sem_step pcok] in *; try discriminate.
  - subst o'. destruct r'; [tauto|destruct k; destruct (s_v s <? lim); discriminate|]. split; [exact X|]. right.
    destruct k; destruct (Nat.ltb_spec (s_v s) lim) as [Y|Y]; try discriminate; (split; [auto|lia]).
  - subst o'. destruct k; try discriminate. injection E as <- <-. auto.
  - destruct (s_v s =? 0); discriminate.
  - destruct HP as (-> & -> & HP). destruct ((s_v s =? cur) && true); [|discriminate]. injection E as <- <-. exact X.
  - destruct ((s_v s =? cur) && false) eqn:F; [rewrite andb_false_r in F; discriminate|discriminate].
  - destruct HP as [-> ->]. destruct (s_v s =? 0); [discriminate|]. injection E as <- <-. exact X.
  - destruct HP as [-> ->]. injection E as <- <-. repeat split; auto. discriminate.
  - destruct (s_v s =? 0); discriminate.
  - destruct HP as [-> HP]. injection E as <- <-. repeat split; auto. destruct HP; congruence.
  - destruct HP as [-> HP]. destruct (s_v s =? 0); [discriminate|]. injection E as <- <-. exact X.
  - destruct HP as [-> HP]. injection E as <- <-. auto.
  - destruct HP as [-> ->]. destruct (Nat.eqb_spec (s_v s) 0) as [Z|Z]; [|discriminate]. injection E as <- <-. auto.
  - destruct HP as (-> & -> & HP). destruct (s_v s =? cur); injection E as <- <-; [exact X|auto].
  - destruct HP as [-> ->]. destruct (Nat.eqb_spec (s_v s) 0) as [Z|Z]; injection E as <- <-; [auto|exact X].
  - destruct HP as [-> ->]. injection E as <- <-. split; [reflexivity|]. right. left. auto.
  - destruct HP as [-> HP]. destruct (Nat.eqb_spec (s_v s) 0) as [Z|Z]; injection E as <- <-; [auto|exact X].
  - destruct HP as [-> HP]. destruct k; injection E as <- <-; [destruct HP; discriminate..|auto|]. split; [reflexivity|]. right. left. auto.
Qed.
Print Assumptions C67_results.

Lemma run_change k lim ls : forall s s' tr, ok k lim s -> sem_run k lim s ls = Some (s', tr) -> s_v s' <> s_v s -> exists t o, In (ERetS t o Zero) tr.
Proof.
  induction ls as [|l ls IH]; intros s s' tr HO H HN; cbn [sem_run] in H; [injection H as <- <-; congruence|].
  destruct (sem_next k lim s l) as [[s1 ev]|] eqn:E1; [|discriminate]. destruct (sem_run k lim s1 ls) as [[s2 ev2]|] eqn:E2; [|discriminate]. injection H as <- <-.
  destruct (next_ok _ _ _ _ _ _ HO E1) as [HO1 D]. destruct (Nat.eq_dec (s_v s1) (s_v s)) as [E|E].
  - destruct (IH _ _ _ HO1 E2) as (t & o & X); [congruence|]. exists t, o. apply in_or_app. auto.
  - destruct D as [[-> D]|(t & o & [[-> D]|(r & -> & D)])]; try contradiction. destruct r; try contradiction. exists t, o. now left.
Qed.

(** ** When try_get fails *)
(** A [try_get] that returns -1 was interrupted, or the value was zero at some
    moment of the call, or (semaphore_spin only) another thread's call took
    effect during this one. *)
Theorem C67_try : forall k lim v n ls s0 tr0 t s1 ev mid s2 tr e s3, v <= lim -> sem_run k lim (sem_init v n) ls = Some (s0, tr0) ->
  sem_next k lim s0 (SCall t TryGet) = Some (s1, ev) -> sem_run k lim s1 mid = Some (s2, tr) -> (forall o r, ~ In (ERetS t o r) tr) ->
  sem_next k lim s2 (SStep t e) = Some (s3, [ERetS t TryGet Minus]) ->
  (e = Interrupted /\ (k = Posix \/ k = Eventfd)) \/
  (exists m1 m2 s' tr', mid = m1 ++ m2 /\ sem_run k lim s1 m1 = Some (s', tr') /\ s_v s' = 0) \/
  (k = Spin /\ exists t' o, t' <> t /\ In (ERetS t' o Zero) tr).
Proof.
  intros k lim v n ls s0 tr0 t s1 ev mid s2 tr e s3 L H0 H1 H2 HQ H3.
  destruct (run_ok _ _ _ _ _ _ (ok_init k lim v n L) H0) as (O0 & _). destruct (next_ok _ _ _ _ _ _ O0 H1) as [O1 _].
  assert (R02 : sem_run k lim (sem_init v n) (ls ++ SCall t TryGet :: mid) = Some (s2, tr0 ++ ev ++ tr)).
  { rewrite sem_run_app, H0. cbn [sem_run]. rewrite H1, H2. reflexivity. }
  destruct (C67_results _ _ _ _ _ _ _ _ _ _ _ _ L R02 H3) as [_ [Z|[Z|Z]]]; [|auto|].
  { right. left. exists mid, [], s2, tr. rewrite app_nil_r. auto. }
  subst k. right.
  (* where the thread is, and what it has read *)
  assert (G : forall mid s2 tr, sem_run Spin lim s1 mid = Some (s2, tr) -> (forall o r, ~ In (ERetS t o r) tr) ->
     nth_error (s_th s2) t = Some (Some (TryGet, TLoad)) \/
     exists cur m1 m2 s' tr' tr'', nth_error (s_th s2) t = Some (Some (TryGet, TCas cur)) /\ mid = m1 ++ m2 /\ sem_run Spin lim s1 m1 = Some (s', tr') /\ s_v s' = cur /\
       sem_run Spin lim s' m2 = Some (s2, tr'') /\ tr = tr' ++ tr'').
  { clear - H1. intro mid. induction mid as [|l mid IH] using rev_ind; intros s2 tr H2 HQ.
    - cbn [sem_run] in H2. injection H2 as <- <-. left. cbn [sem_next] in H1. destruct (nth_error (s_th s0) t) as [[]|] eqn:Ht; try discriminate.
      injection H1 as <- _. cbn [s_th sem_start]. rewrite upd_same; [reflexivity|]. apply nth_error_Some. congruence.
    - pose proof H2 as H2'. rewrite sem_run_app in H2. destruct (sem_run Spin lim s1 mid) as [[sa tra]|] eqn:Ea; [|discriminate].
      cbn [sem_run] in H2. destruct (sem_next Spin lim sa l) as [[sb trb]|] eqn:Eb; [|discriminate]. injection H2 as <- <-. rewrite app_nil_r in *.
      specialize (IH sa tra eq_refl). assert (HQa : forall o r, ~ In (ERetS t o r) tra) by (intros o r X; apply (HQ o r), in_or_app; auto). specialize (IH HQa).
      assert (HQb : forall o r, ~ In (ERetS t o r) trb) by (intros o r X; apply (HQ o r), in_or_app; auto).
      assert (Other : forall t' , l <> SStep t' Normal \/ t' <> t -> match l with SStep t1 _ => t1 <> t | SCall t1 _ => True end ->
                nth_error (s_th sb) t = nth_error (s_th sa) t).
      { intros t' _ X. destruct l as [t1 o1|t1 e1]; cbn [sem_next] in Eb.
        - destruct (nth_error (s_th sa) t1) as [[]|] eqn:Ht1; try discriminate. injection Eb as <- _. cbn [s_th]. destruct (Nat.eq_dec t t1) as [->|Y].
          + destruct IH as [IH|(? & ? & ? & ? & ? & ? & IH & _)]; congruence.
          + now rewrite upd_other.
        - destruct (nth_error (s_th sa) t1) as [[[o1 p1]|]|] eqn:Ht1; try discriminate. destruct (sem_step Spin lim e1 (s_v sa) p1); try discriminate; injection Eb as <- _; cbn [s_th]; now rewrite upd_other by congruence. }
      destruct l as [t1 o1|t1 e1].
      + rewrite (Other 0 ltac:(left; discriminate) I). destruct IH as [IH|(cur & m1 & m2 & s' & tr' & tr'' & A & B & C & D & E & F)]; [now left|]. right.
        exists cur, m1, (m2 ++ [SCall t1 o1]), s', tr', (tr'' ++ trb). subst. rewrite <- !app_assoc. repeat split; auto. rewrite sem_run_app, E. cbn [sem_run]. rewrite Eb, app_nil_r. reflexivity.
      + destruct (Nat.eq_dec t1 t) as [->|Y].
        * cbn [sem_next] in Eb. destruct IH as [IH|(cur & m1 & m2 & s' & tr' & tr'' & A & B & C & D & E & F)].
          -- rewrite IH in Eb. destruct e1; cbn [sem_step] in Eb; try discriminate. destruct (s_v sa =? 0) eqn:Z.
             ++ injection Eb as <- <-. exfalso. apply (HQb TryGet Minus). now left.
             ++ assert (Eb' : sem_next Spin lim sa (SStep t Normal) = Some (sb, trb)) by (cbn [sem_next]; rewrite IH; cbn [sem_step]; rewrite Z; exact Eb).
                injection Eb as <- <-. right. cbn [s_th]. exists (s_v sa), mid, [SStep t Normal], sa, tra, []. rewrite upd_same by (apply nth_error_Some; congruence).
                split; [reflexivity|]. split; [reflexivity|]. split; [exact Ea|]. split; [reflexivity|]. split; [|reflexivity]. cbn [sem_run]. rewrite Eb'. reflexivity.
          -- rewrite A in Eb. destruct e1; cbn [sem_step] in Eb; try discriminate. destruct (s_v sa =? cur); injection Eb as <- <-; exfalso; eapply HQb; left; reflexivity.
        * rewrite (Other t1 ltac:(auto) Y). destruct IH as [IH|(cur & m1 & m2 & s' & tr' & tr'' & A & B & C & D & E & F)]; [now left|]. right.
          exists cur, m1, (m2 ++ [SStep t1 e1]), s', tr', (tr'' ++ trb). subst. rewrite <- !app_assoc. repeat split; auto. rewrite sem_run_app, E. cbn [sem_run]. rewrite Eb, app_nil_r. reflexivity. }
  destruct (G mid s2 tr H2 HQ) as [G1|(cur & m1 & m2 & s' & tr' & tr'' & A & B & C & D & E & F)].
  - left. exists mid, [], s2, tr. rewrite app_nil_r. split; [reflexivity|]. split; [exact H2|].
    cbn [sem_next] in H3. rewrite G1 in H3. destruct e; cbn [sem_step] in H3; try discriminate. destruct (Nat.eqb_spec (s_v s2) 0) as [X|X]; [exact X|discriminate].
  - right. split; [reflexivity|]. cbn [sem_next] in H3. rewrite A in H3. destruct e; cbn [sem_step] in H3; try discriminate.
    destruct (Nat.eqb_spec (s_v s2) cur) as [X|X]; [discriminate|]. destruct (run_ok _ _ _ _ _ _ O1 C) as (O' & _).
    destruct (run_change _ _ _ _ _ _ O' E ltac:(congruence)) as (t' & o' & I'). exists t', o'. subst tr. split; [|apply in_or_app; auto].
    intros ->. apply (HQ o' Zero). apply in_or_app. auto.
Qed.
Print Assumptions C67_try.

(** ** Nothing waits without cause *)
(** A call cannot move only if it is a [get] and the value is zero, or the
    [put] of a semaphore_pipe that holds as much as it can. *)
Theorem C67_blocked : forall k lim v n ls s tr t o, v <= lim -> sem_run k lim (sem_init v n) ls = Some (s, tr) -> calling s t o ->
  sem_next k lim s (SStep t Normal) = None -> (o = Get /\ s_v s = 0 /\ k <> Spin) \/ (o = Put /\ k = Pipe /\ s_v s = lim).
Proof.
  intros k lim v n ls s tr t o L H [p Hp] HN. destruct (run_ok _ _ _ _ _ _ (ok_init k lim v n L) H) as ([HL HP] & _). specialize (HP _ _ _ Hp).
  cbn [sem_next] in HN. rewrite Hp in HN. destruct p; cbn [sem_step pcok] in *.
  - destruct k; destruct (Nat.ltb_spec (s_v s) lim) as [X|X]; try discriminate. right. repeat split; auto. lia.
  - destruct (s_v s =? 0); discriminate.
  - destruct ((s_v s =? cur) && true); discriminate.
  - destruct (Nat.eqb_spec (s_v s) 0) as [X|X]; [|discriminate]. left. destruct HP as [-> ->]. repeat split; auto. discriminate.
  - destruct (Nat.eqb_spec (s_v s) 0) as [X|X]; [|discriminate]. left. destruct HP as [-> HP]. repeat split; auto. destruct HP; congruence.
  - destruct (s_v s =? 0); discriminate.
  - destruct (s_v s =? 0); discriminate.
  - destruct (s_v s =? cur); discriminate.
  - destruct (s_v s =? 0); discriminate.
  - destruct (s_v s =? 0); discriminate.
Qed.
Print Assumptions C67_blocked.

(** Wherever it is, a [get] that is left to run while the value is positive
    returns 0 within three steps; a [put] (below the limit) within one. *)
Theorem C67_solo : forall k lim v n ls s tr t o, v <= lim -> sem_run k lim (sem_init v n) ls = Some (s, tr) -> calling s t o ->
  match o with
  | Get => 0 < s_v s -> exists m s', m <= 3 /\ solo k lim s t m = Some (s', [ERetS t Get Zero])
  | Put => s_v s < lim -> exists s', solo k lim s t 1 = Some (s', [ERetS t Put Zero])
  | TryGet => exists m s' r, m <= 2 /\ solo k lim s t m = Some (s', [ERetS t TryGet r]) /\ r <> Throw
  end.
Proof.
  intros k lim v n ls s tr t o L H [p Hp]. destruct (run_ok _ _ _ _ _ _ (ok_init k lim v n L) H) as ([HL HP] & _). specialize (HP _ _ _ Hp).
  assert (Ht : t < length (s_th s)) by (apply nth_error_Some; congruence).
  assert (Mv : forall s1 p1 p2, t < length (s_th s1) -> nth_error (s_th s1) t = Some (Some (o, p1)) -> sem_step k lim Normal (s_v s1) p1 = SMove p2 ->
     sem_next k lim s1 (SStep t Normal) = Some ({| s_v := s_v s1; s_th := upd (s_th s1) t (Some (o, p2)) |}, [])).
  { intros s1 p1 p2 _ E1 E2. cbn [sem_next]. now rewrite E1, E2. }
  assert (Rt : forall s1 p1 v' r, nth_error (s_th s1) t = Some (Some (o, p1)) -> sem_step k lim Normal (s_v s1) p1 = SRet v' r ->
     sem_next k lim s1 (SStep t Normal) = Some ({| s_v := v'; s_th := upd (s_th s1) t None |}, [ERetS t o r])).
  { intros s1 p1 v' r E1 E2. cbn [sem_next]. now rewrite E1, E2. }
  set (go := fun p' => {| s_v := s_v s; s_th := upd (s_th s) t (Some (o, p')) |}).
  assert (Hgo : forall p', nth_error (s_th (go p')) t = Some (Some (o, p'))) by (intro; apply upd_same; exact Ht).
  assert (One : forall v' r, sem_step k lim Normal (s_v s) p = SRet v' r -> exists s', solo k lim s t 1 = Some (s', [ERetS t o r])).
  { intros v' r E. unfold solo. cbn [repeat sem_run]. rewrite (Rt s p v' r Hp E). cbn [app]. eauto. }
  assert (Two : forall p2 v' r, sem_step k lim Normal (s_v s) p = SMove p2 -> sem_step k lim Normal (s_v s) p2 = SRet v' r -> exists s', solo k lim s t 2 = Some (s', [ERetS t o r])).
  { intros p2 v' r E E2. unfold solo. cbn [repeat sem_run]. rewrite (Mv s p p2 Ht Hp E). change {| s_v := s_v s; s_th := upd (s_th s) t (Some (o, p2)) |} with (go p2).
    rewrite (Rt (go p2) p2 v' r (Hgo p2) E2). cbn [app]. eauto. }
  assert (CasOk : forall x, x <> 0 -> s_v s = x -> sem_step k lim Normal (s_v s) (GCas x) = SRet (x - 1) Zero).
  { intros x _ <-. cbn [sem_step]. now rewrite Nat.eqb_refl. }
  destruct p; cbn [pcok] in HP.
  - subst o. intro HV. apply One with (v' := S (s_v s)). cbn [sem_step]. destruct (Nat.ltb_spec (s_v s) lim) as [X|X]; [|lia]. destruct k; reflexivity.
  - destruct HP as [-> _]. intro HV. assert (NZ : (s_v s =? 0) = false) by (apply Nat.eqb_neq; lia).
    destruct (Two (GCas (s_v s)) (s_v s - 1) Zero) as [s' X]; [cbn [sem_step]; now rewrite NZ|apply CasOk; [lia|reflexivity]|]. exists 2, s'. auto.
  - destruct HP as (-> & _ & _). intro HV. assert (NZ : (s_v s =? 0) = false) by (apply Nat.eqb_neq; lia). destruct (Nat.eq_dec (s_v s) cur) as [E|E].
    + destruct (One (cur - 1) Zero) as [s' X]; [cbn [sem_step]; rewrite E, Nat.eqb_refl; reflexivity|]. exists 1, s'. auto.
    + destruct (Two (GCas (s_v s)) (s_v s - 1) Zero) as [s' X]; [cbn [sem_step]; rewrite (proj2 (Nat.eqb_neq _ _) E), NZ; reflexivity|apply CasOk; [lia|reflexivity]|]. exists 2, s'. auto.
  - destruct HP as [-> _]. intro HV. assert (NZ : (s_v s =? 0) = false) by (apply Nat.eqb_neq; lia).
    destruct (One (s_v s - 1) Zero) as [s' X]; [cbn [sem_step]; now rewrite NZ|]. exists 1, s'. auto.
  - destruct HP as [-> _]. intro HV. assert (NZ : (s_v s =? 0) = false) by (apply Nat.eqb_neq; lia).
    destruct (Two GRead (s_v s - 1) Zero) as [s' X]; [cbn [sem_step]; now rewrite NZ..|]. exists 2, s'. auto.
  - destruct HP as [-> _]. intro HV. assert (NZ : (s_v s =? 0) = false) by (apply Nat.eqb_neq; lia).
    destruct (One (s_v s - 1) Zero) as [s' X]; [cbn [sem_step]; now rewrite NZ|]. exists 1, s'. auto.
  - destruct HP as [-> _]. destruct (Nat.eqb_spec (s_v s) 0) as [Z|Z].
    + destruct (One (s_v s) Minus) as [s' X]; [cbn [sem_step]; now rewrite Z|]. exists 1, s', Minus. repeat split; auto. discriminate.
    + destruct (Two (TCas (s_v s)) (s_v s - 1) Zero) as [s' X]; [cbn [sem_step]; now rewrite (proj2 (Nat.eqb_neq _ _) Z)|cbn [sem_step]; now rewrite Nat.eqb_refl|].
      exists 2, s', Zero. repeat split; auto. discriminate.
  - destruct HP as (-> & _ & _). destruct (Nat.eqb (s_v s) cur) eqn:Z.
    + destruct (One (cur - 1) Zero) as [s' X]; [cbn [sem_step]; now rewrite Z|]. exists 1, s', Zero. repeat split; auto. discriminate.
    + destruct (One (s_v s) Minus) as [s' X]; [cbn [sem_step]; now rewrite Z|]. exists 1, s', Minus. repeat split; auto. discriminate.
  - destruct HP as [-> _]. destruct (Nat.eqb (s_v s) 0) eqn:Z.
    + destruct (One (s_v s) Minus) as [s' X]; [cbn [sem_step]; now rewrite Z|]. exists 1, s', Minus. repeat split; auto. discriminate.
    + destruct (One (s_v s - 1) Zero) as [s' X]; [cbn [sem_step]; now rewrite Z|]. exists 1, s', Zero. repeat split; auto. discriminate.
  - destruct HP as [-> _]. destruct (Nat.eqb (s_v s) 0) eqn:Z.
    + destruct (One (s_v s) Minus) as [s' X]; [cbn [sem_step]; now rewrite Z|]. exists 1, s', Minus. repeat split; auto. discriminate.
    + destruct (One (s_v s - 1) Zero) as [s' X]; [cbn [sem_step]; now rewrite Z|]. exists 1, s', Zero. repeat split; auto. discriminate.
Qed.
Print Assumptions C67_solo.

(** ** The file descriptor *)
(** The descriptor is readable exactly when there are more puts than successful
    gets, which is when a [get] or [try_get] that starts now and runs alone
    returns 0 at once. *)
Theorem C67_fd : forall k lim v n ls s tr t, v <= lim -> (k = Pipe \/ k = Eventfd) -> sem_run k lim (sem_init v n) ls = Some (s, tr) ->
  nth_error (s_th s) t = Some None ->
  (fd_readable (s_v s) = true <-> gets tr < v + puts tr) /\
  (fd_readable (s_v s) = true <-> exists s', sem_run k lim s [SCall t TryGet; SStep t Normal] = Some (s', [ECallS t TryGet; ERetS t TryGet Zero])) /\
  (fd_readable (s_v s) = true <-> exists s', sem_run k lim s [SCall t Get; SStep t Normal; SStep t Normal] = Some (s', [ECallS t Get; ERetS t Get Zero])).
Proof.
  intros k lim v n ls s tr t L K H Ht. destruct (C67_counter _ _ _ _ _ _ _ L H) as (_ & _ & X & _). specialize (X ltac:(left; destruct K; congruence)).
  assert (Hl : t < length (s_th s)) by (apply nth_error_Some; congruence). unfold fd_readable. destruct (Nat.eqb_spec (s_v s) 0) as [Z|Z]; cbn [negb].
  - split; [split; [discriminate|lia]|]. split; (split; [discriminate|]); intros [s' E]; exfalso; cbn [sem_run sem_next] in E; rewrite Ht in E; cbn [s_th s_v] in E; rewrite upd_same in E by exact Hl;
      destruct K as [-> | ->]; cbn [sem_start sem_step] in E; rewrite Z in E; cbn [Nat.eqb] in E; cbn in E; discriminate.
  - split; [split; [lia|reflexivity]|].
    assert (NZ : (s_v s =? 0) = false) by (apply Nat.eqb_neq; lia).
    split; (split; [intros _|reflexivity]); cbn [sem_run sem_next]; rewrite Ht; cbn [s_th s_v]; rewrite upd_same by exact Hl;
      destruct K as [-> | ->]; cbn [sem_start sem_step]; rewrite NZ; cbn [s_th s_v]; rewrite ?upd_same by (rewrite ?upd_length; exact Hl); cbn [sem_step]; rewrite ?NZ; cbn [app]; eauto.
Qed.
Print Assumptions C67_fd.

(** The constructors: the value is the one asked for if it fits; otherwise they
    fail, or (semaphore_pipe) never return. *)
Theorem C67_new : forall k lim n, sem_new k lim n = if n <=? lim then Some n else None.
Proof.
  assert (F : forall lim n v, pipe_fill lim v n = if (v + n <=? lim) || (n =? 0) then Some (v + n) else None).
  { intro lim. induction n as [|n IH]; intro v; cbn [pipe_fill]. { now rewrite Nat.add_0_r, orb_true_r. }
    cbn [sem_step]. rewrite orb_false_r. destruct (Nat.ltb_spec v lim) as [X|X].
    - rewrite IH. replace (v + S n) with (S v + n) by lia. destruct (Nat.leb_spec (S v + n) lim) as [Y|Y]; [reflexivity|]. cbn [orb].
      destruct n; [lia|reflexivity].
    - destruct (Nat.leb_spec (v + S n) lim); [lia|reflexivity]. }
  intros k lim n. destruct k; try reflexivity. cbn [sem_new]. rewrite F. cbn [Nat.add]. destruct n; [reflexivity|]. cbn [Nat.eqb]. now rewrite orb_false_r.
Qed.
Print Assumptions C67_new.

(** Three threads: a get waits for a put, is interrupted and restarted, a
    try_get finds nothing. *)
Definition ex_sem : list slabel :=
  [SCall 0 Get; SStep 0 Normal; SStep 0 Normal; SCall 0 Get; SStep 0 Interrupted; SCall 1 TryGet; SStep 1 Normal;
   SCall 2 Put; SCall 0 Get; SStep 2 Normal; SStep 0 Normal; SCall 1 TryGet; SStep 1 Normal; SStep 0 Normal; SCall 2 Put; SStep 2 Normal].
Example C67_ex : exists s tr, sem_run Eventfd 1000 (sem_init 1 3) ex_sem = Some (s, tr) /\ puts tr = 2 /\ gets tr = 2 /\ s_v s = 1 /\
  In (ERetS 0 Get Minus) tr /\ In (ERetS 1 TryGet Minus) tr /\ In (ERetS 1 TryGet Zero) tr /\ calling s 0 Get /\ nth_error (s_th s) 1 = Some None.
Proof.
  eexists _, _. split; [vm_compute; reflexivity|]. repeat split; cbn; auto 20. eexists. reflexivity.
Qed.

(** What does not hold.  common_semaphore.h:66-72 says that [try_get] returns -1
    only if the semaphore is zero or a system call was interrupted: two calls of
    semaphore_spin::try_get at once, and one of them fails with the value never
    below 1. *)
Theorem C67_spin_try_refuted : exists lim ls s tr, sem_run Spin lim (sem_init 2 2) ls = Some (s, tr) /\
  In (ERetS 0 TryGet Minus) tr /\ puts tr = 0 /\ gets tr = 1 /\ (forall t, ~ In (SStep t Interrupted) ls).
Proof.
  exists 1000, [SCall 0 TryGet; SCall 1 TryGet; SStep 0 Normal; SStep 1 Normal; SStep 1 Normal; SStep 0 Normal].
  eexists _, _. split; [vm_compute; reflexivity|]. split; [cbn; auto|]. split; [reflexivity|]. split; [reflexivity|].
  intros t H. cbn in H. repeat (destruct H as [H|H]; [discriminate|]). exact H.
Qed.
Print Assumptions C67_spin_try_refuted.
(** A [put] of semaphore_eventfd whose system call is interrupted throws instead
    of trying again (it compares errno with -1). *)
Theorem C67_eventfd_put_refuted : exists lim ls s tr, sem_run Eventfd lim (sem_init 0 1) ls = Some (s, tr) /\
  In (ERetS 0 Put Throw) tr /\ s_v s = 0 /\ 0 < lim.
Proof.
  exists 1000, [SCall 0 Put; SStep 0 Interrupted]. eexists _, _. split; [vm_compute; reflexivity|]. split; [cbn; auto|]. split; [reflexivity|]. apply Nat.lt_0_succ.
Qed.
Print Assumptions C67_eventfd_put_refuted.
