(** Invariants of chunk streams with rings (C62): locks, chunks and producers. *)
From Coq Require Import List Arith Bool Lia.
From Verif Require Import ConcBase RingModel RingSpec RingProofs RingStreamProofs ChunkRingModel ChunkRingSpec ChunkRingProofs.
Import ListNotations.

Notation Sd s := (stopped (sd s)).
Notation Sf s := (stopped (sf s)).
Notation Pr s := (producers (sd s)).

(** *** Locks *)
Definition holds (c : client) : option nat :=
  match c with KHeld i | KAlloc i _ | KReady i _ _ _ | KFlush i _ | KRemove i _ _ => Some i | _ => None end.
Definition quiet (x : cstream) : Prop := c_removed x = c_done x /\ (c_done x = true -> c_win x = []).
Definition inside (c : client) (x : cstream) : Prop :=
  match c with
  | KHeld _ | KFlush _ UserFlush => quiet x
  | KAlloc _ _ | KReady _ _ (None | Some UserFlush) _ => c_done x = false /\ c_removed x = false
  | KFlush _ _ | KReady _ _ (Some _) _ => c_done x = true /\ c_removed x = false
  | KRemove _ f _ => c_done x = true /\ c_removed x = false /\ c_win x = [] /\ f <> UserFlush
  | _ => False
  end.
Record locks (s : cstate) : Prop := {
  l_holds : forall t c i, nth_error (cl s) t = Some c -> holds c = Some i -> exists x, nth_error (st s) i = Some x /\ c_mutex x = Some t /\ inside c x;
  l_mutex : forall i x t, nth_error (st s) i = Some x -> c_mutex x = Some t -> exists c, nth_error (cl s) t = Some c /\ holds c = Some i;
  l_quiet : forall i x, nth_error (st s) i = Some x -> c_mutex x = None -> quiet x }.

Lemma nth_lt {A} (l : list A) n x : nth_error l n = Some x -> n < length l.
Proof. intro H. apply nth_error_Some. congruence. Qed.

Lemma locks_same s t c c' s' : locks s -> nth_error (cl s) t = Some c -> cl s' = upd (cl s) t c' -> holds c = None -> holds c' = None -> st s' = st s -> locks s'.
Proof.
  intros [L1 L2 L3] Hc Hcl H H' Hst. constructor; rewrite Hst, ?Hcl.
  - intros u d i Hu Hd. rewrite nth_upd in Hu. destruct (Nat.eqb_spec u t) as [->|N]; [|eauto]. destruct (t <? length (cl s)); [|discriminate]. injection Hu as <-. congruence.
  - intros i x u Hx Hm. destruct (L2 i x u Hx Hm) as (d & Hd & Hi). exists d. split; [|exact Hi]. rewrite upd_other; [exact Hd|]. intros ->. congruence.
  - exact L3.
Qed.
Lemma locks_more s t c c' s' : locks s -> nth_error (cl s) t = Some c -> cl s' = upd (cl s) t c' -> holds c = None -> holds c' = None -> st s' = st s ++ [cnew] -> locks s'.
Proof.
  intros [L1 L2 L3] Hc Hcl H H' Hst. constructor; rewrite Hst, ?Hcl.
  - intros u d i Hu Hd. rewrite nth_upd in Hu. destruct (Nat.eqb_spec u t) as [->|N].
    + destruct (t <? length (cl s)); [|discriminate]. injection Hu as <-. congruence.
    + destruct (L1 u d i Hu Hd) as (x & Hx & R). exists x. split; [|exact R]. rewrite nth_error_app1; [exact Hx|]. eapply nth_lt; eauto.
  - intros i x u Hx Hm. destruct (Nat.lt_ge_cases i (length (st s))) as [G|G].
    + rewrite nth_error_app1 in Hx by exact G. destruct (L2 i x u Hx Hm) as (d & Hd & Hi). exists d. split; [|exact Hi]. rewrite upd_other; [exact Hd|]. intros ->. congruence.
    + rewrite nth_error_app2 in Hx by exact G. destruct (i - length (st s)) as [|[]]; [|discriminate|discriminate]. injection Hx as <-. discriminate.
  - intros i x Hx Hm. destruct (Nat.lt_ge_cases i (length (st s))) as [G|G].
    + rewrite nth_error_app1 in Hx by exact G. eauto.
    + rewrite nth_error_app2 in Hx by exact G. destruct (i - length (st s)) as [|[]]; [|discriminate|discriminate]. injection Hx as <-. split; [reflexivity|discriminate].
Qed.
Lemma locks_one s t c c' s' i x x' : locks s -> nth_error (cl s) t = Some c -> cl s' = upd (cl s) t c' -> nth_error (st s) i = Some x -> st s' = upd (st s) i x' ->
  (holds c = Some i \/ holds c = None /\ c_mutex x = None) ->
  (holds c' = Some i /\ c_mutex x' = Some t /\ inside c' x' \/ holds c' = None /\ c_mutex x' = None /\ quiet x') -> locks s'.
Proof.
  intros [L1 L2 L3] Hc Hcl Hx Hst B A. pose proof (nth_lt _ _ _ Hc) as Lt. pose proof (nth_lt _ _ _ Hx) as Li. constructor; rewrite Hst, ?Hcl.
  - intros u d j Hu Hd. rewrite nth_upd in Hu. destruct (Nat.eqb_spec u t) as [->|N].
    + apply Nat.ltb_lt in Lt. rewrite Lt in Hu. injection Hu as <-. destruct A as [(A1 & A2 & A3)|(A1 & _)]; [|congruence]. assert (j = i) by congruence. subst j. exists x'. rewrite upd_same by exact Li. auto.
    + destruct (L1 u d j Hu Hd) as (y & Hy & M & Iy). destruct (Nat.eq_dec j i) as [->|Nj].
      * exfalso. assert (y = x) by congruence. subst y. destruct B as [B|[_ B]]; [|congruence]. destruct (L1 t c i Hc B) as (z & Hz & Mz & _). assert (z = x) by congruence. subst z. congruence.
      * exists y. rewrite upd_other by exact Nj. auto.
  - intros j y u Hy Hm. destruct (Nat.eq_dec j i) as [->|Nj].
    + rewrite upd_same in Hy by exact Li. injection Hy as <-. destruct A as [(A1 & A2 & A3)|(A1 & A2 & _)]; [|congruence]. assert (u = t) by congruence. subst u. exists c'. rewrite upd_same by exact Lt. auto.
    + rewrite upd_other in Hy by exact Nj. destruct (L2 j y u Hy Hm) as (d & Hd & Hj). exists d. split; [|exact Hj]. rewrite upd_other; [exact Hd|]. intros ->. assert (d = c) by congruence. subst d. destruct B as [B|[B _]]; congruence.
  - intros j y Hy Hm. destruct (Nat.eq_dec j i) as [->|Nj].
    + rewrite upd_same in Hy by exact Li. injection Hy as <-. destruct A as [(A1 & A2 & A3)|(A1 & A2 & A3)]; [congruence|exact A3].
    + rewrite upd_other in Hy by exact Nj. eauto.
Qed.
Lemma locks_keep s t c c' s' i x' : locks s -> nth_error (cl s) t = Some c -> cl s' = upd (cl s) t c' -> holds c = Some i -> holds c' = Some i -> st s' = upd (st s) i x' ->
  (forall x, nth_error (st s) i = Some x -> inside c x -> inside c' x' /\ c_mutex x' = c_mutex x) -> locks s'.
Proof.
  intros L Hc Hcl H1 H2 Hst I. destruct (l_holds _ L t c i Hc H1) as (x & Hx & Mx & Ix). destruct (I x Hx Ix) as [I1 I2]. eapply (locks_one s t c c' s' i x x'); eauto. left. rewrite I2. auto.
Qed.
Lemma locks_stay s t c c' s' i : locks s -> nth_error (cl s) t = Some c -> cl s' = upd (cl s) t c' -> holds c = Some i -> holds c' = Some i -> st s' = st s ->
  (forall x, nth_error (st s) i = Some x -> inside c x -> inside c' x) -> locks s'.
Proof.
  intros L Hc Hcl H1 H2 Hst I. destruct (l_holds _ L t c i Hc H1) as (x & Hx & Mx & Ix). eapply (locks_keep s t c c' s' i x); eauto.
  - rewrite upd_id by exact Hx. exact Hst.
  - intros y Hy Iy. assert (y = x) by congruence. subst y. auto.
Qed.
Ltac inst := match goal with H : nth_error ?l ?i = Some ?x |- forall y, nth_error ?l ?i = Some y -> _ => let E := fresh in intros ? E ?; rewrite H in E; injection E as <- | _ => intros ? ? ? end.
Ltac ins := repeat match goal with f : fin |- _ => destruct f | k : option fin |- _ => destruct k end; cbn in *; unfold quiet in *; cbn in *; intuition congruence.
Lemma locks_move s t c c' s' ev : locks s -> nth_error (cl s) t = Some c -> cl s' = upd (cl s) t c' -> move t s s' c c' ev -> locks s'.
Proof.
  intros L Hc Hcl M.
  destruct M; match goal with U : upto _ _ _ _ _ _ _ _ |- _ => destruct U as (Ust & _) end;
    try (eapply locks_same; eauto; reflexivity); try (eapply locks_more; eauto; reflexivity);
    try (eapply locks_stay; [exact L|exact Hc|exact Hcl|reflexivity|try destruct k; reflexivity|exact Ust|]; inst; ins);
    try (eapply locks_keep; [exact L|exact Hc|exact Hcl|reflexivity|try destruct k; reflexivity|exact Ust|]; inst; (split; [|reflexivity]); ins).
  { destruct (holds c) as [i|] eqn:Hh; [|eapply locks_same; eauto]. eapply locks_stay; eauto. }
  all: try (assert (Ih := fun i => l_holds _ L _ _ i Hc)).
  all: try (eapply locks_one; [exact L|exact Hc|exact Hcl|eassumption|exact Ust|cbn; auto; fail|]).

  all: try (match goal with H : c_mutex ?x = None, Hx : nth_error (st _) _ = Some ?x |- _ => pose proof (l_quiet _ L _ _ Hx H) end).
  - left. split; [reflexivity|]. split; [reflexivity|]. ins.
  - right. destruct (Ih _ eq_refl) as (y & Hy & _ & I). assert (y = x) by congruence. subst y. split; [reflexivity|]. split; [reflexivity|]. ins.
  - left. destruct (Ih _ eq_refl) as (y & Hy & M & I). assert (y = x) by congruence. subst y. split; [reflexivity|]. split; [exact M|]. destruct (c_done x) eqn:D; ins.
  - right. destruct (Ih _ eq_refl) as (y & Hy & _ & I). assert (y = x) by congruence. subst y. split; [reflexivity|]. split; [reflexivity|]. ins.
  - left. split; [reflexivity|]. split; [reflexivity|]. ins.
  - left. split; [reflexivity|]. split; [reflexivity|]. ins.
  - right. split; [reflexivity|]. split; [assumption|]. ins.
  - destruct H as [[i ->]| ->]; eapply locks_same; eauto.
  - right. destruct (Ih _ eq_refl) as (y & Hy & _ & I). assert (y = x) by congruence. subst y. split; [now destruct f|]. split; [reflexivity|]. ins.
  - destruct H as [[i ->]| ->]; eapply locks_same; eauto.
Qed.

(** *** What threads know *)
Definition knows (s : cstate) (c : client) : Prop :=
  match c with
  | KStopFree i => i < length (st s)
  | KStopData i => i < length (st s) /\ Sf s = true
  | KWant i P3 => (exists x, nth_error (st s) i = Some x /\ c_done x = true) /\ Sd s = true /\ Sf s = true
  | KWant i _ => i < length (st s) /\ Sd s = true /\ Sf s = true
  | KFlush _ (UserFlush | UserStop) | KReady _ _ (Some (UserFlush | UserStop)) _ | KRemove _ UserStop _ => Sd s = true /\ Sf s = true
  | _ => True
  end.
(** What never goes back *)
Definition later (s s' : cstate) : Prop :=
  (Sd s = true -> Sd s' = true) /\ (Sf s = true -> Sf s' = true) /\
  forall i x, nth_error (st s) i = Some x -> exists x', nth_error (st s') i = Some x' /\ (c_done x = true -> c_done x' = true) /\ (c_removed x = true -> c_removed x' = true).
Lemma later_upd l i (x x' : cstream) : nth_error l i = Some x -> (c_done x = true -> c_done x' = true) -> (c_removed x = true -> c_removed x' = true) ->
  forall j y, nth_error l j = Some y -> exists y', nth_error (upd l i x') j = Some y' /\ (c_done y = true -> c_done y' = true) /\ (c_removed y = true -> c_removed y' = true).
Proof.
  intros H D R j y Hy. destruct (Nat.eq_dec j i) as [->|N].
  - exists x'. rewrite upd_same by (eapply nth_lt; eauto). assert (y = x) by congruence. subst y. auto.
  - exists y. rewrite upd_other by exact N. auto.
Qed.
Lemma later_move s t c c' s' ev : move t s s' c c' ev -> later s s'.
Proof.
  intros M. unfold later. assert (R : forall l : list cstream, forall i x, nth_error l i = Some x -> exists x', nth_error l i = Some x' /\ (c_done x = true -> c_done x' = true) /\ (c_removed x = true -> c_removed x' = true)) by eauto.
  destruct M; match goal with U : upto _ _ _ _ _ _ _ _ |- _ => destruct U as (-> & _ & _ & -> & -> & _) end; (split; [auto; congruence|]); (split; [auto; congruence|]); try apply R;
    try (eapply later_upd; [eassumption|cbn; auto|cbn; auto]).
  intros i x Hx. exists x. rewrite nth_error_app1 by (eapply nth_lt; eauto). auto.
Qed.
Lemma knows_later s s' c : later s s' -> knows s c -> knows s' c.
Proof.
  intros (L1 & L2 & L3). assert (L4 : forall i, i < length (st s) -> i < length (st s')). { intros i Hi. destruct (nth_error (st s) i) as [x|] eqn:E; [|apply nth_error_None in E; lia]. destruct (L3 i x E) as (x' & E' & _). eapply nth_lt; eauto. }
  destruct c as [| |i|i got|i v [[]|] sent|i []|i [] eff|i|i|i []|v sent|b got|b]; cbn; intuition auto. destruct H0 as (x & Hx & D). destruct (L3 i x Hx) as (x' & Hx' & D' & _). eauto.
Qed.
Definition know (s : cstate) : Prop := forall t c, nth_error (cl s) t = Some c -> knows s c.
Lemma know_move s t c c' s' ev : locks s -> know s -> nth_error (cl s) t = Some c -> cl s' = upd (cl s) t c' -> move t s s' c c' ev -> know s'.
Proof.
  intros L K Hc Hcl M u d Hu. pose proof (later_move _ _ _ _ _ _ M) as La. rewrite Hcl, nth_upd in Hu. destruct (Nat.eqb_spec u t) as [->|N]; [|exact (knows_later _ _ _ La (K _ _ Hu))].
  destruct (t <? length (cl s)); [|discriminate]. injection Hu as <-. pose proof (knows_later _ _ _ La (K _ _ Hc)) as Kc. pose proof (K _ _ Hc) as K0. assert (Ih := fun i => l_holds _ L _ _ i Hc).
  destruct M; try exact Kc; try exact I; try (repeat match goal with f : fin |- _ => destruct f | k : option fin |- _ => destruct k end; cbn in *; intuition auto; fail); match goal with U : upto _ _ _ _ _ _ _ _ |- _ => destruct U as (Ust & _ & _ & U1 & U2 & _) end; cbn in *; rewrite ?Ust, ?U1, ?U2, ?upd_length.
  - destruct (Ih _ eq_refl) as (y & Hy & _). apply nth_lt in Hy. auto.
  - destruct K0 as (_ & ? & ?). eauto.
  - eapply nth_lt; eauto.
  - destruct K0. auto.
  - destruct f; cbn in *; auto; rewrite ?Ust, ?U1, ?U2; destruct (Ih _ eq_refl) as (y & Hy & _ & D & _ & _ & N); try congruence. split; [|exact K0]. eexists. rewrite upd_same by (eapply nth_lt; eauto). split; [reflexivity|]. assert (y = x) by congruence. now subst y.
  - auto.
Qed.

(** *** The chunks of a stream *)
Definition hand (l : list client) (i : nat) (x : cstream) : list nat :=
  match c_mutex x with Some t => match nth_error l t with Some c => sending i c | None => [] end | None => [] end.
Definition remc (i : nat) (c : client) : bool := match c with KRemove j _ _ => Nat.eqb j i | _ => false end.
Definition rem (l : list client) (i : nat) (x : cstream) : bool :=
  match c_mutex x with Some t => match nth_error l t with Some c => remc i c | None => false end | None => false end.
Record flow (tr : list cevent) (s : cstate) (i : nat) (x : cstream) : Prop := {
  f_order : allocs i tr = sents i tr ++ burieds i tr ++ hand (cl s) i x ++ c_win x;
  f_grave : forall v, count_occ Nat.eq_dec (burieds i tr) v = count_occ Nat.eq_dec (freeds i tr) v + count_occ Nat.eq_dec (c_grave x) v;
  f_stopped : burieds i tr <> [] -> Sd s = true;
  f_over : In (Over i) tr <-> c_removed x = true \/ rem (cl s) i x = true }.
Definition about (j : nat) (e : cevent) : bool := match e with Alloc i _ | Sent i _ | Buried i _ | Freed i _ | Over i | Made i => Nat.eqb i j | _ => false end.
Lemma about_none j ev : forallb (fun e => negb (about j e)) ev = true -> allocs j ev = [] /\ sents j ev = [] /\ burieds j ev = [] /\ freeds j ev = [] /\ ~ In (Over j) ev /\ ~ In (Made j) ev.
Proof.
  induction ev as [|e ev IH]; [cbn; auto 8|]. cbn [forallb]. intro H. apply andb_prop in H as [H1 H2]. destruct (IH H2) as (A1 & A2 & A3 & A4 & A5 & A6). apply negb_true_iff in H1.
  unfold allocs, sents, burieds, freeds in *. cbn [flat_map]. rewrite A1, A2, A3, A4. destruct e; cbn in *; rewrite ?H1; repeat split; auto; intros [E|E]; auto; try discriminate; injection E as ->; rewrite Nat.eqb_refl in H1; discriminate.
Qed.
Lemma allocs_app i a b : allocs i (a ++ b) = allocs i a ++ allocs i b. Proof. apply flat_map_app. Qed.
Lemma sents_app i a b : sents i (a ++ b) = sents i a ++ sents i b. Proof. apply flat_map_app. Qed.
Lemma burieds_app i a b : burieds i (a ++ b) = burieds i a ++ burieds i b. Proof. apply flat_map_app. Qed.
Lemma freeds_app i a b : freeds i (a ++ b) = freeds i a ++ freeds i b. Proof. apply flat_map_app. Qed.
Lemma hand_upd l t c' i x : t < length l -> hand (upd l t c') i x = match c_mutex x with Some u => if Nat.eqb u t then sending i c' else hand l i x | None => [] end.
Proof. intro L. unfold hand. destruct (c_mutex x) as [u|]; [|reflexivity]. rewrite nth_upd. destruct (Nat.eqb_spec u t) as [->|]; [|reflexivity]. apply Nat.ltb_lt in L. now rewrite L. Qed.
Lemma rem_upd l t c' i x : t < length l -> rem (upd l t c') i x = match c_mutex x with Some u => if Nat.eqb u t then remc i c' else rem l i x | None => false end.
Proof. intro L. unfold rem. destruct (c_mutex x) as [u|]; [|reflexivity]. rewrite nth_upd. destruct (Nat.eqb_spec u t) as [->|]; [|reflexivity]. apply Nat.ltb_lt in L. now rewrite L. Qed.
Lemma hand_at l i x t c : c_mutex x = Some t -> nth_error l t = Some c -> hand l i x = sending i c. Proof. unfold hand. now intros -> ->. Qed.
Lemma rem_at l i x t c : c_mutex x = Some t -> nth_error l t = Some c -> rem l i x = remc i c. Proof. unfold rem. now intros -> ->. Qed.
Lemma sending_holds i c : holds c <> Some i -> sending i c = [] /\ remc i c = false.
Proof.
  intro N. split.
  - destruct c as [| | | |j v k []| | | | | | | |]; try reflexivity. cbn in *. destruct (Nat.eqb_spec j i); [congruence|reflexivity].
  - destruct c; try reflexivity. cbn in *. apply Nat.eqb_neq. congruence.
Qed.
Lemma hand_same l t c c' j y : nth_error l t = Some c -> sending j c = sending j c' -> hand (upd l t c') j y = hand l j y.
Proof.
  intros Hc E. rewrite hand_upd by (eapply nth_lt; eauto). destruct (c_mutex y) as [u|] eqn:M; [|unfold hand; now rewrite M]. destruct (Nat.eqb_spec u t) as [->|]; [|reflexivity]. rewrite (hand_at _ _ _ _ _ M Hc). now rewrite E.
Qed.
Lemma rem_same l t c c' j y : nth_error l t = Some c -> remc j c = remc j c' -> rem (upd l t c') j y = rem l j y.
Proof.
  intros Hc E. rewrite rem_upd by (eapply nth_lt; eauto). destruct (c_mutex y) as [u|] eqn:M; [|unfold rem; now rewrite M]. destruct (Nat.eqb_spec u t) as [->|]; [|reflexivity]. rewrite (rem_at _ _ _ _ _ M Hc). now rewrite E.
Qed.
Lemma flow_here tr s s' ev i x x' : flow tr s i x -> (Sd s = true -> Sd s' = true) -> (sents i ev = [] \/ Sd s = false) ->
  hand (cl s) i x ++ c_win x ++ allocs i ev = sents i ev ++ burieds i ev ++ hand (cl s') i x' ++ c_win x' ->
  (forall v, count_occ Nat.eq_dec (burieds i ev) v + count_occ Nat.eq_dec (c_grave x) v = count_occ Nat.eq_dec (freeds i ev) v + count_occ Nat.eq_dec (c_grave x') v) ->
  (burieds i ev <> [] -> Sd s' = true) ->
  (In (Over i) ev \/ c_removed x = true \/ rem (cl s) i x = true <-> c_removed x' = true \/ rem (cl s') i x' = true) ->
  flow (tr ++ ev) s' i x'.
Proof.
  intros [O G S R] M N E C B V. constructor.
  - rewrite allocs_app, sents_app, burieds_app, O. rewrite <- !app_assoc, E. destruct N as [N|N].
    + rewrite N. reflexivity.
    + assert (Z : burieds i tr = []) by (destruct (burieds i tr); [reflexivity|]; exfalso; rewrite S in N; discriminate). now rewrite Z.
  - intro v. rewrite burieds_app, freeds_app, !count_occ_app. specialize (C v). specialize (G v). lia.
  - rewrite burieds_app. intro H. destruct (burieds i tr) as [|b l]; [apply B; exact H|]. apply M, S. discriminate.
  - rewrite in_app_iff. rewrite R. clear -V. tauto.
Qed.
(** A step that has nothing to do with stream [j] *)
Lemma flow_frame tr s t c c' s' ev j y : flow tr s j y -> nth_error (cl s) t = Some c -> cl s' = upd (cl s) t c' -> (Sd s = true -> Sd s' = true) ->
  sending j c = sending j c' -> remc j c = remc j c' -> forallb (fun e => negb (about j e)) ev = true -> flow (tr ++ ev) s' j y.
Proof.
  intros F Hc Hcl M E1 E2 A. destruct (about_none _ _ A) as (A1 & A2 & A3 & A4 & A5 & _).
  apply (flow_here tr s s' ev j y y F M (or_introl A2)); rewrite ?A1, ?A2, ?A3, ?A4, ?Hcl, ?(hand_same _ _ _ _ _ _ Hc E1), ?(rem_same _ _ _ _ _ _ Hc E2), ?app_nil_r; try reflexivity; tauto.
Qed.
Record flows (tr : list cevent) (s : cstate) : Prop := {
  fs_flow : forall i x, nth_error (st s) i = Some x -> flow tr s i x;
  fs_none : forall i, length (st s) <= i -> allocs i tr = [] /\ sents i tr = [] /\ burieds i tr = [] /\ freeds i tr = [] /\ ~ In (Over i) tr /\ ~ In (Made i) tr }.
Lemma about_other i j ev : i <> j -> forallb (fun e => match e with Alloc k _ | Sent k _ | Buried k _ | Freed k _ | Over k | Made k => Nat.eqb k i | _ => true end) ev = true -> forallb (fun e => negb (about j e)) ev = true.
Proof.
  intros N. rewrite !forallb_forall. intros H e He. specialize (H e He). destruct e; cbn; try reflexivity; apply Nat.eqb_eq in H; subst; apply negb_true_iff, Nat.eqb_neq; exact N.
Qed.
(** Steps for one stream *)
Lemma flows_one tr s t c c' s' ev i x x' : flows tr s -> nth_error (cl s) t = Some c -> cl s' = upd (cl s) t c' -> (Sd s = true -> Sd s' = true) ->
  nth_error (st s) i = Some x -> st s' = upd (st s) i x' -> (holds c = Some i \/ holds c = None) -> (holds c' = Some i \/ holds c' = None) ->
  forallb (fun e => match e with Alloc k _ | Sent k _ | Buried k _ | Freed k _ | Over k | Made k => Nat.eqb k i | _ => true end) ev = true ->
  flow (tr ++ ev) s' i x' -> flows (tr ++ ev) s'.
Proof.
  intros [F N] Hc Hcl M Hx Hst E E' A Here. constructor; rewrite Hst.
  - intros j y Hy. destruct (Nat.eq_dec j i) as [->|Nj].
    + rewrite upd_same in Hy by (eapply nth_lt; eauto). injection Hy as <-. exact Here.
    + rewrite upd_other in Hy by exact Nj. assert (H1 : holds c <> Some j) by (destruct E as [-> | ->]; congruence). assert (H2 : holds c' <> Some j) by (destruct E' as [-> | ->]; congruence).
      apply sending_holds in H1 as [S1 R1]. apply sending_holds in H2 as [S2 R2]. apply (flow_frame tr s t c c' s' ev j y (F j y Hy) Hc Hcl M); [congruence|congruence|]. apply (about_other i); [congruence|exact A].
  - rewrite upd_length. intros j Hj. pose proof (nth_lt _ _ _ Hx). destruct (N j Hj) as (N1 & N2 & N3 & N4 & N5 & N6). destruct (about_none j ev) as (A1 & A2 & A3 & A4 & A5 & A6); [eapply (about_other i); [lia|exact A]|].
    rewrite allocs_app, sents_app, burieds_app, freeds_app, !in_app_iff, N1, N2, N3, N4, A1, A2, A3, A4. tauto.
Qed.
Lemma flows_same tr s t c c' s' ev : flows tr s -> nth_error (cl s) t = Some c -> cl s' = upd (cl s) t c' -> (Sd s = true -> Sd s' = true) -> st s' = st s ->
  (forall j, sending j c = sending j c' /\ remc j c = remc j c') -> forallb (fun e => match e with Alloc _ _ | Sent _ _ | Buried _ _ | Freed _ _ | Over _ | Made _ => false | _ => true end) ev = true -> flows (tr ++ ev) s'.
Proof.
  intros [F N] Hc Hcl M Hst E A. assert (A' : forall j, forallb (fun e => negb (about j e)) ev = true). { intro j. rewrite forallb_forall in A |- *. intros e He. specialize (A e He). destruct e; try discriminate; reflexivity. }
  constructor; rewrite Hst.
  - intros j y Hy. destruct (E j) as [E1 E2]. exact (flow_frame tr s t c c' s' ev j y (F j y Hy) Hc Hcl M E1 E2 (A' j)).
  - intros j Hj. destruct (N j Hj) as (N1 & N2 & N3 & N4 & N5 & N6). destruct (about_none j ev (A' j)) as (A1 & A2 & A3 & A4 & A5 & A6).
    rewrite allocs_app, sents_app, burieds_app, freeds_app, !in_app_iff, N1, N2, N3, N4, A1, A2, A3, A4. tauto.
Qed.
Lemma flows_more tr s t s' : flows tr s -> nth_error (cl s) t = Some KNew -> cl s' = upd (cl s) t KIdle -> (Sd s = true -> Sd s' = true) -> st s' = st s ++ [cnew] -> flows (tr ++ [DataE (ERet t RUnit); Made (length (st s))]) s'.
Proof.
  intros [F N] Hc Hcl M Hst. constructor; rewrite Hst.
  - intros j y Hy. destruct (Nat.lt_ge_cases j (length (st s))) as [G|G].
    + rewrite nth_error_app1 in Hy by exact G. apply (flow_frame tr s t KNew KIdle s' _ j y (F j y Hy) Hc Hcl M); [reflexivity|reflexivity|]. cbn. rewrite andb_true_r. apply negb_true_iff, Nat.eqb_neq. lia.
    + rewrite nth_error_app2 in Hy by exact G. destruct (j - length (st s)) as [|[]] eqn:Z; [|discriminate|discriminate]. injection Hy as <-. destruct (N j G) as (N1 & N2 & N3 & N4 & N5 & N6).
      constructor; rewrite ?allocs_app, ?sents_app, ?burieds_app, ?freeds_app, ?in_app_iff, ?N1, ?N2, ?N3, ?N4; cbn; [reflexivity|reflexivity|congruence|]. split; [|intros [|]; discriminate]. intros [H|[H|[H|[]]]]; [tauto|discriminate|discriminate].
  - rewrite app_length. cbn [length]. intros j Hj. destruct (N j ltac:(lia)) as (N1 & N2 & N3 & N4 & N5 & N6). rewrite allocs_app, sents_app, burieds_app, freeds_app, !in_app_iff, N1, N2, N3, N4. cbn. repeat split; auto.
    + intros [H|[H|[H|[]]]]; [tauto|discriminate|discriminate].
    + intros [H|[H|[H|[]]]]; [tauto|discriminate|]. injection H as H. lia.
Qed.
Lemma freeds_map i l : freeds i (map (Freed i) l ++ [StopRet i]) = l.
Proof. unfold freeds. rewrite flat_map_app. cbn. rewrite app_nil_r. induction l; [reflexivity|]. cbn. rewrite Nat.eqb_refl. cbn. now f_equal. Qed.
Lemma flows_move tr s t c c' s' ev : locks s -> flows tr s -> nth_error (cl s) t = Some c -> cl s' = upd (cl s) t c' -> move t s s' c c' ev -> flows (tr ++ ev) s'.
Proof.
  intros L F Hc Hcl M. pose proof (later_move _ _ _ _ _ _ M) as (La & _). pose proof (nth_lt _ _ _ Hc) as Lt.
  assert (K : forall i x', holds c = Some i -> holds c' = Some i -> st s' = upd (st s) i x' -> 
    forallb (fun e => match e with Alloc k _ | Sent k _ | Buried k _ | Freed k _ | Over k | Made k => Nat.eqb k i | _ => true end) ev = true ->
    (forall x, nth_error (st s) i = Some x -> c_mutex x = Some t -> inside c x -> hand (cl s) i x = sending i c -> rem (cl s) i x = remc i c ->
      c_mutex x' = Some t /\ (sents i ev = [] \/ Sd s = false) /\ sending i c ++ c_win x ++ allocs i ev = sents i ev ++ burieds i ev ++ sending i c' ++ c_win x' /\
      (forall v, count_occ Nat.eq_dec (burieds i ev) v + count_occ Nat.eq_dec (c_grave x) v = count_occ Nat.eq_dec (freeds i ev) v + count_occ Nat.eq_dec (c_grave x') v) /\
      (burieds i ev <> [] -> Sd s' = true) /\ (In (Over i) ev \/ c_removed x = true \/ remc i c = true <-> c_removed x' = true \/ remc i c' = true)) -> flows (tr ++ ev) s').
  { intros i x' H1 H2 Hst A Q. destruct (l_holds _ L t c i Hc H1) as (x & Hx & Mx & Ix). pose proof (hand_at _ i _ _ _ Mx Hc) as Eh. pose proof (rem_at _ i _ _ _ Mx Hc) as Er. destruct (Q x Hx Mx Ix Eh Er) as (Q1 & Q2 & Q3 & Q4 & Q5 & Q6).
    eapply flows_one; eauto. apply (flow_here tr s s' ev i x x' (fs_flow _ _ F i x Hx) La Q2); auto.
    - rewrite Eh, Hcl, hand_upd, Q1, Nat.eqb_refl by exact Lt. exact Q3.
    - rewrite Er, Hcl, rem_upd, Q1, Nat.eqb_refl by exact Lt. exact Q6. }
  assert (K2 : forall i x x', nth_error (st s) i = Some x -> c_mutex x = None -> holds c = None -> holds c' = Some i -> st s' = upd (st s) i x' -> ev = [] -> c_mutex x' = Some t -> c_win x' = c_win x -> c_grave x' = c_grave x -> c_removed x' = c_removed x -> sending i c' = [] -> remc i c' = false -> flows (tr ++ ev) s').
  { intros i x x' Hx Mx H1 H2 Hst -> M' W G R S1 R1. eapply (flows_one tr s t c c' s' [] i x x'); eauto.
    assert (Eh : hand (cl s) i x = []) by (unfold hand; now rewrite Mx). assert (Er : rem (cl s) i x = false) by (unfold rem; now rewrite Mx).
    apply (flow_here tr s s' [] i x x' (fs_flow _ _ F i x Hx) La); [now left| | |intro Q; now destruct Q|].
    - rewrite Eh, Hcl, hand_upd, M', Nat.eqb_refl, S1, W by exact Lt. cbn. now rewrite app_nil_r.
    - intro v. now rewrite G.
    - rewrite Er, Hcl, rem_upd, M', Nat.eqb_refl, R1, R by exact Lt. cbn. intuition discriminate. }
  assert (K3 : forall i x x', nth_error (st s) i = Some x -> (holds c = Some i \/ holds c = None /\ c_mutex x = None) -> holds c' = None -> st s' = upd (st s) i x' -> c_mutex x' = None -> c_win x' = c_win x ->
      forallb (fun e => match e with Alloc k _ | Sent k _ | Buried k _ | Freed k _ | Over k | Made k => Nat.eqb k i | _ => true end) ev = true ->
      sending i c = [] -> allocs i ev = [] -> sents i ev = [] -> burieds i ev = [] -> ~ In (Over i) ev -> (forall v, count_occ Nat.eq_dec (c_grave x) v = count_occ Nat.eq_dec (freeds i ev) v + count_occ Nat.eq_dec (c_grave x') v) ->
      (c_removed x = true \/ remc i c = true <-> c_removed x' = true) -> flows (tr ++ ev) s').
  { intros i x x' Hx Ho H2 Hst M' W A S1 E1 E2 E3 E4 G R. eapply (flows_one tr s t c c' s' ev i x x'); eauto; [tauto|].
    assert (Eh : hand (cl s) i x = [] /\ rem (cl s) i x = remc i c).
    { destruct Ho as [H1|[H1 Mx]].
      - destruct (l_holds _ L t c i Hc H1) as (y & Hy & My & _). assert (y = x) by congruence. subst y. rewrite (hand_at _ i _ _ _ My Hc), (rem_at _ i _ _ _ My Hc). auto.
      - unfold hand, rem. rewrite Mx. split; [reflexivity|]. symmetry. apply sending_holds. congruence. }
    destruct Eh as [Eh Er]. assert (Eh' : hand (cl s') i x' = []) by (unfold hand; now rewrite M'). assert (Er' : rem (cl s') i x' = false) by (unfold rem; now rewrite M').
    apply (flow_here tr s s' ev i x x' (fs_flow _ _ F i x Hx) La); rewrite ?E1, ?E2, ?E3, ?Eh, ?Eh', ?Er, ?Er', ?W.
    - now left.
    - cbn. apply app_nil_r.
    - intro v. rewrite G. reflexivity.
    - intro Q. now destruct Q.
    - intuition discriminate. }
  destruct M; match goal with U : upto _ _ _ _ _ _ _ _ |- _ => destruct U as (Ust & _ & _ & Usd & _) end;
    try (eapply flows_same; [exact F|exact Hc|exact Hcl|exact La|exact Ust|intro j; now split|reflexivity]); try (eapply flows_more; eauto; fail).
  - eapply K2; eauto; reflexivity.
  - eapply K3; eauto; try reflexivity. cbn. intuition discriminate.
  - eapply K; eauto; try reflexivity. intros y Hy My Iy Eh Er. assert (y = x) by congruence. subst y. cbn. rewrite Nat.eqb_refl, H1, app_nil_r. cbn. intuition discriminate.
  - eapply K; eauto; try reflexivity. intros y Hy My Iy Eh Er. assert (y = x) by congruence. subst y. cbn. rewrite app_nil_r. intuition discriminate.
  - eapply K; eauto; try reflexivity. intros y Hy My Iy Eh Er. assert (y = x) by congruence. subst y. cbn. rewrite Nat.eqb_refl, H0, app_nil_r. cbn. intuition discriminate.
  - eapply K3; eauto; try reflexivity. cbn. intuition discriminate.
  - apply (K i x); try reflexivity; [now rewrite upd_id|cbn; now rewrite Nat.eqb_refl|]. intros y Hy My Iy Eh Er. assert (y = x) by congruence. subst y. cbn. rewrite Nat.eqb_refl, app_nil_r. intuition discriminate.
  - eapply K2; eauto; reflexivity.
  - eapply K2; eauto; reflexivity.
  - eapply K3; eauto; try reflexivity; cbn [c_win c_grave with_grave].
    + rewrite forallb_app. cbn. rewrite andb_true_r. clear. induction (c_grave x); [reflexivity|]. cbn. now rewrite Nat.eqb_refl.
    + unfold allocs. rewrite flat_map_app. cbn. rewrite app_nil_r. clear. now induction (c_grave x).
    + unfold sents. rewrite flat_map_app. cbn. rewrite app_nil_r. clear. now induction (c_grave x).
    + unfold burieds. rewrite flat_map_app. cbn. rewrite app_nil_r. clear. now induction (c_grave x).
    + rewrite in_app_iff, in_map_iff. cbn. intros [(u & Q & _)|[Q|[]]]; discriminate.
    + intro v. rewrite freeds_map. cbn. lia.
    + cbn. intuition discriminate.
  - destruct (l_holds _ L t _ i Hc eq_refl) as (x & Hx & _). apply (K i x); try reflexivity; [now rewrite upd_id|cbn; now rewrite Nat.eqb_refl|]. intros y Hy My Iy Eh Er. assert (y = x) by congruence. subst y. cbn. rewrite Nat.eqb_refl. cbn. rewrite app_nil_r. intuition discriminate.
  - destruct (l_holds _ L t _ i Hc eq_refl) as (x & Hx & _). apply (K i x); try reflexivity; [now destruct k|now rewrite upd_id|]. intros y Hy My Iy Eh Er. assert (y = x) by congruence. subst y. destruct k; cbn; rewrite app_nil_r; intuition discriminate.
  - eapply K; eauto; try reflexivity; [now destruct k|cbn; now rewrite Nat.eqb_refl|]. intros y Hy My Iy Eh Er. assert (y = x) by congruence. subst y. destruct k; cbn; rewrite Nat.eqb_refl; cbn; rewrite app_nil_r; intuition (try congruence; try discriminate); destruct (Nat.eq_dec v v0); reflexivity.
  - destruct (l_holds _ L t _ i Hc eq_refl) as (y & Hy & My & Iy). assert (y = x) by congruence. subst y. eapply K3; eauto; try reflexivity; [now destruct f|cbn; intuition discriminate|]. cbn. rewrite Nat.eqb_refl. tauto.
  - eapply K; eauto; try reflexivity; [cbn; now rewrite Nat.eqb_refl|]. intros y Hy My Iy Eh Er. assert (y = x) by congruence. subst y. cbn. rewrite Nat.eqb_refl. cbn. intuition discriminate.
Qed.

(** *** Where chunks are *)
Notation cnt v l := (count_occ Nat.eq_dec l v).
Definition owned (v : nat) (x : cstream) : nat := cnt v (c_win x) + cnt v (c_grave x).
Definition carry (v : nat) (c : client) : nat := cnt v (carried c).
Definition tally (chunks : list nat) (tr : list cevent) (s : cstate) : Prop := forall v,
  cnt v chunks + cnt v (pops (of_d tr)) + cnt v (pops (of_f tr)) =
  cnt v (pushes (of_d tr)) + cnt v (pushes (of_f tr)) + sumw (owned v) (st s) + cnt v (mine s) + cnt v (all_freed tr) + sumw (carry v) (cl s).
Lemma pushes_app (a b : list (event nat)) : pushes (a ++ b) = pushes a ++ pushes b. Proof. apply flat_map_app. Qed.
Lemma pops_app (a b : list (event nat)) : pops (a ++ b) = pops a ++ pops b. Proof. apply flat_map_app. Qed.
Lemma all_freed_app a b : all_freed (a ++ b) = all_freed a ++ all_freed b. Proof. apply flat_map_app. Qed.
Lemma all_sent_app a b : all_sent (a ++ b) = all_sent a ++ all_sent b. Proof. apply flat_map_app. Qed.
Lemma cnt_cons v w l : cnt v (w :: l) = cnt v [w] + cnt v l.
Proof. cbn. destruct (Nat.eq_dec w v); reflexivity. Qed.
Lemma cnt_remove1 v w l : In w l -> cnt v l = cnt v [w] + cnt v (remove1 w l).
Proof.
  induction l as [|x l IH]; [intros []|]. intro H. cbn [remove1]. destruct (Nat.eqb_spec w x) as [->|N]; [apply cnt_cons|]. destruct H as [H|H]; [congruence|]. rewrite (cnt_cons v x), (cnt_cons v x (remove1 w l)), IH by exact H. lia.
Qed.
Lemma all_freed_map i l : all_freed (map (Freed i) l ++ [StopRet i]) = l.
Proof. unfold all_freed. rewrite flat_map_app. cbn. rewrite app_nil_r. induction l; [reflexivity|]. cbn. now f_equal. Qed.
Lemma tally_move chunks tr s t c c' s' ev : tally chunks tr s -> nth_error (cl s) t = Some c -> cl s' = upd (cl s) t c' -> move t s s' c c' ev -> tally chunks (tr ++ ev) s'.
Proof.
  intros T Hc Hcl M v. specialize (T v). rewrite of_d_app, of_f_app, !pushes_app, !pops_app, all_freed_app, !count_occ_app, Hcl. pose proof (sumw_upd (carry v) _ _ _ c' Hc) as Sc. unfold carry in Sc at 2 4.
  assert (Cb : forall i k, carried (back i k) = []) by (intros i [k|]; reflexivity). assert (Cf : forall i f, carried (match f with NetStop => KIdle | _ => KWant i P3 end) = []) by (intros i []; reflexivity).
  destruct M; match goal with U : upto _ _ _ _ _ _ _ _ |- _ => destruct U as (Ust & Um & _) end; rewrite Ust, Um;
    try match goal with Hx : nth_error (st s) ?i = Some ?x |- context [upd (st s) ?i ?x'] => pose proof (sumw_upd (owned v) _ _ _ x' Hx) as Sx; unfold owned in Sx at 2 4; cbn [c_win c_grave with_lock with_win with_grave with_done with_removed] in Sx end;
    try match goal with Hw : c_win ?x = ?u :: ?w |- _ => rewrite Hw, (cnt_cons v u) in Sx end;
    try rewrite of_d_app, of_f_app, of_d_freed, of_f_freed, all_freed_map;
    try match goal with H : In ?w ?l |- context [remove1 ?w ?l] => rewrite (cnt_remove1 v w l H) in T end;
    rewrite ?sumw_app; cbn [of_d of_f flat_map app pushes pops all_freed count_occ carried] in *;
    try (unfold owned at 2; cbn [sumw c_win c_grave cnew count_occ]); rewrite ?count_occ_app in *; rewrite ?Cb, ?Cf in Sc; cbn [count_occ] in *;
    repeat match goal with |- context [if Nat.eq_dec ?a v then _ else _] => destruct (Nat.eq_dec a v) | H : context [if Nat.eq_dec ?a v then _ else _] |- _ => destruct (Nat.eq_dec a v) end; try lia.
Qed.
