(** Invariant of the send stream. *)
From Coq Require Import ZArith List Bool Lia.
From Verif Require Import Base ConcBase SendStreamModel SendStreamSpec SendStreamBase.
Import ListNotations.
Open Scope Z_scope.

(** *** Groups in the queue *)
Record ag := { ag_id : Z; ag_mode : gmode; ag_items : list qitem; ag_act : nat; ag_out : nat }.
Definition ipk (q : qitem) : list (pkt * Z) := map (fun p => (p, q_sub q)) (q_pkts q).
Definition lists (l : list qitem) : list (list (pkt * Z)) := map ipk l.
Definition left_of (mode : gmode) (act : nat) (l : list qitem) : list (pkt * Z) :=
  match mode with Serial => concat (lists l) | RoundRobin => rr_rest act (lists l) end.
Definition ag_left (g : ag) : list (pkt * Z) := left_of (ag_mode g) (ag_act g) (ag_items g).
Definition exhausted (l : list qitem) : Prop := Forall (fun q => q_pkts q = []) l.
Definition nth_empty (l : list qitem) (i : nat) : Prop := exists q, nth_error l i = Some q /\ q_pkts q = [].
Definition nth_ready (l : list qitem) (i : nat) : Prop := exists q p r, nth_error l i = Some q /\ q_pkts q = p :: r.
Definition links (st : Z) (l : list qitem) : Prop :=
  forall i q, nth_error l i = Some q -> exists d, (1 <= d <= length l)%nat /\ q_next q = w64 (st + Z.of_nat ((i + d) mod length l))
    /\ forall e, (1 <= e < d)%nat -> nth_empty l ((i + e) mod length l).
Record ag_ok (st : Z) (g : ag) : Prop := {
  ok_ne : ag_items g <> [];
  ok_fields : Forall (fun q => q_mode q = ag_mode g /\ q_end q = w64 (st + Z.of_nat (length (ag_items g)))) (ag_items g);
  ok_handler : exists q r, ag_items g = q :: r /\ q_handler q = Some (ag_id g);
  ok_links : ag_mode g = RoundRobin -> links st (ag_items g) }.
Definition running (g : ag) : Prop :=
  nth_ready (ag_items g) (ag_act g) /\ (ag_mode g = Serial -> forall i, (i < ag_act g)%nat -> nth_empty (ag_items g) i).
Definition fresh (g : ag) : Prop := running g /\ ag_act g = O /\ ag_out g = O.

Lemma nth_ready_lt l i : nth_ready l i -> (i < length l)%nat.
Proof. intros (q & p & r & H & _). apply nth_error_Some. congruence. Qed.
Lemma nth_empty_lt l i : nth_empty l i -> (i < length l)%nat.
Proof. intros (q & H & _). apply nth_error_Some. congruence. Qed.
Lemma ready_not_empty l i : nth_ready l i -> nth_empty l i -> False.
Proof. intros (q & p & r & H & E) (q' & H' & E'). congruence. Qed.
Lemma lists_length l : length (lists l) = length l.
Proof. apply map_length. Qed.
Lemma lists_empty l i : nth_empty l i -> nth_error (lists l) i = Some [].
Proof. intros (q & H & E). unfold lists. rewrite (map_nth_error _ _ _ H). unfold ipk. now rewrite E. Qed.
Lemma exhausted_lists l : exhausted l -> Forall (fun x => x = []) (lists l).
Proof. intro H. unfold lists. apply Forall_map. eapply Forall_impl; [|exact H]. cbn beta. intros q E. unfold ipk. now rewrite E. Qed.
Lemma concat_empty {A} (l : list (list A)) : Forall (fun x => x = []) l -> concat l = [].
Proof. induction 1 as [|x l -> _ IH]; cbn [concat app]; auto. Qed.
Lemma exhausted_left g : exhausted (ag_items g) -> ag_left g = [].
Proof.
  intro H. apply exhausted_lists in H. unfold ag_left, left_of. destruct (ag_mode g); [now apply rr_rest_empty|now apply concat_empty].
Qed.
Lemma lists_upd l i q : lists (upd l i q) = upd (lists l) i (ipk q).
Proof. unfold lists. revert i. induction l as [|x l IH]; intros [|i]; cbn [upd map]; auto. now rewrite IH. Qed.

(** The head of what is left. *)
Lemma concat_nth_empty {A} (L : list (list A)) a : (forall i, (i < a)%nat -> nth_error L i = Some []) -> concat L = concat (skipn a L).
Proof.
  revert L. induction a as [|a IH]; intros L H; [reflexivity|]. destruct L as [|x L]; [reflexivity|]. cbn [skipn].
  pose proof (H O ltac:(lia)) as H0. injection H0 as ->. cbn [concat app]. apply IH. intros i Hi. apply (H (S i)). lia.
Qed.
Lemma concat_upd_head {A} (L : list (list A)) a x l :
  nth_error L a = Some (x :: l) -> (forall i, (i < a)%nat -> nth_error L i = Some []) -> concat L = x :: concat (upd L a l).
Proof.
  revert L. induction a as [|a IH]; intros [|y L] H E; cbn [nth_error] in H; try discriminate.
  - injection H as ->. reflexivity.
  - pose proof (E O ltac:(lia)) as E0. injection E0 as ->. cbn [upd concat app]. apply (IH L H). intros i Hi. apply (E (S i)). lia.
Qed.
Lemma running_left g : running g -> exists q p r, nth_error (ag_items g) (ag_act g) = Some q /\ q_pkts q = p :: r /\
  ag_left g = (p, q_sub q) :: match ag_mode g with Serial => concat (lists (upd (ag_items g) (ag_act g) (set_pkts q r)))
                                              | RoundRobin => rr_rest (S (ag_act g)) (lists (upd (ag_items g) (ag_act g) (set_pkts q r))) end.
Proof.
  intros [(q & p & r & H & E) HS]. exists q, p, r. split; [exact H|]. split; [exact E|].
  assert (HL : nth_error (lists (ag_items g)) (ag_act g) = Some ((p, q_sub q) :: map (fun x => (x, q_sub q)) r)).
  { unfold lists. rewrite (map_nth_error _ _ _ H). unfold ipk. now rewrite E. }
  rewrite lists_upd. change (ipk (set_pkts q r)) with (map (fun x => (x, q_sub q)) r).
  unfold ag_left, left_of. destruct (ag_mode g).
  - apply (rr_rest_take _ _ _ _ HL).
  - apply (concat_upd_head _ _ _ _ HL). intros i Hi. apply lists_empty, HS; auto.
Qed.

(** *** The searches *)
Section Search.
Variables (mask : Z) (sl : list (option qitem)) (st : Z) (l : list qitem).
Let n := length l.
Hypothesis HG : forall i q, nth_error l i = Some q -> get_queue mask sl (w64 (st + Z.of_nat i)) = Some q.
Hypothesis Hinj : forall i j, (i <= n)%nat -> (j <= n)%nat -> w64 (st + Z.of_nat i) = w64 (st + Z.of_nat j) -> i = j.

Lemma rr_search_spec a : (a < n)%nat ->
  (forall d q, (1 <= d < n)%nat -> nth_error l ((a + d) mod n) = Some q -> exists d2, (1 <= d2)%nat /\ (d + d2 <= n)%nat
     /\ q_next q = w64 (st + Z.of_nat ((a + d + d2) mod n)) /\ forall e, (d < e < d + d2)%nat -> nth_empty l ((a + e) mod n)) ->
  forall fuel d, (1 <= d <= n)%nat -> (n - d < fuel)%nat -> (forall e, (1 <= e < d)%nat -> nth_empty l ((a + e) mod n)) ->
  (rr_search fuel mask sl (w64 (st + Z.of_nat a)) (w64 (st + Z.of_nat ((a + d) mod n))) = Some None /\ exhausted l) \/
  (exists d', rr_search fuel mask sl (w64 (st + Z.of_nat a)) (w64 (st + Z.of_nat ((a + d) mod n))) = Some (Some (w64 (st + Z.of_nat ((a + d') mod n))))
     /\ (1 <= d' <= n)%nat /\ (forall e, (1 <= e < d')%nat -> nth_empty l ((a + e) mod n)) /\ nth_ready l ((a + d') mod n)).
Proof.
  intros Ha HL. induction fuel as [|f IH]; intros d Hd Hf He; [lia|]. cbn [rr_search].
  assert (Hb : ((a + d) mod n < n)%nat) by (apply Nat.mod_upper_bound; lia).
  destruct (nth_error l ((a + d) mod n)) as [q|] eqn:Q; [|apply nth_error_None in Q; fold n in Q; lia].
  rewrite (HG _ _ Q). destruct (q_pkts q) as [|p r] eqn:E.
  - destruct (Z.eqb_spec (w64 (st + Z.of_nat ((a + d) mod n))) (w64 (st + Z.of_nat a))) as [K|K].
    + left. split; [reflexivity|]. apply Hinj in K; [|lia|lia].
      assert (d = n).
      { destruct (Nat.lt_ge_cases (a + d) n) as [B|B]; [rewrite Nat.mod_small in K by lia; lia|].
        replace (a + d)%nat with (a + d - n + 1 * n)%nat in K by lia. rewrite Nat.mod_add in K by lia. destruct (Nat.lt_ge_cases (a + d - n) n); [|lia].
        rewrite Nat.mod_small in K by lia. lia. }
      subst d. apply Forall_forall. intros x X. apply In_nth_error in X as [i X]. assert (Hi : (i < n)%nat) by (apply nth_error_Some; congruence).
      destruct (Nat.eq_dec i a) as [->|N]; [rewrite K in Q; congruence|].
      set (e := if (a <? i)%nat then (i - a)%nat else (n - a + i)%nat).
      assert (A1 : (1 <= e < n)%nat) by (unfold e; destruct (Nat.ltb_spec a i); lia).
      assert (A2 : ((a + e) mod n = i)%nat).
      { unfold e. destruct (Nat.ltb_spec a i); [replace (a + (i - a))%nat with i by lia; apply Nat.mod_small; lia|].
        replace (a + (n - a + i))%nat with (i + 1 * n)%nat by lia. rewrite Nat.mod_add by lia. apply Nat.mod_small; lia. }
      destruct (He e A1) as (x' & X' & E'). rewrite A2 in X'. congruence.
    + assert (D : (d < n)%nat).
      { destruct (Nat.eq_dec d n) as [->|]; [|lia]. exfalso. apply K. replace (a + n)%nat with (a + 1 * n)%nat by lia. rewrite Nat.mod_add, Nat.mod_small by lia. reflexivity. }
      destruct (HL d q ltac:(lia) Q) as (d2 & B1 & B2 & B3 & B4). rewrite B3. rewrite <- Nat.add_assoc. apply IH; [lia|lia|].
      intros e Hx. destruct (Nat.lt_trichotomy e d) as [C|[->|C]]; [apply He; lia|exists q; auto|apply B4; lia].
  - right. exists d. split; [reflexivity|]. split; [lia|]. split; [exact He|]. exists q, p, r. auto.
Qed.

Lemma serial_search_spec : forall fuel a, (a < n)%nat -> (n - a <= fuel)%nat -> (forall i, (i < a)%nat -> nth_empty l i) ->
  (serial_search fuel mask sl (w64 (st + Z.of_nat n)) (w64 (st + Z.of_nat a)) = Some None /\ exhausted l) \/
  (exists b, serial_search fuel mask sl (w64 (st + Z.of_nat n)) (w64 (st + Z.of_nat a)) = Some (Some (w64 (st + Z.of_nat b)))
     /\ (forall i, (i < b)%nat -> nth_empty l i) /\ nth_ready l b).
Proof.
  induction fuel as [|f IH]; intros a Ha Hf He; [lia|]. cbn [serial_search].
  destruct (nth_error l a) as [q|] eqn:Q; [|apply nth_error_None in Q; fold n in Q; lia].
  rewrite (HG _ _ Q). destruct (q_pkts q) as [|p r] eqn:E.
  - rewrite w64_add. replace (st + Z.of_nat a + 1) with (st + Z.of_nat (S a)) by lia.
    assert (He' : forall i, (i < S a)%nat -> nth_empty l i) by (intros i Hi; destruct (Nat.eq_dec i a) as [->|]; [exists q; auto|apply He; lia]).
    destruct (Z.eqb_spec (w64 (st + Z.of_nat (S a))) (w64 (st + Z.of_nat n))) as [K|K].
    + left. split; [reflexivity|]. apply Hinj in K; [|lia|lia]. apply Forall_forall. intros x X. apply In_nth_error in X as [i X].
      assert (Hi : (i < n)%nat) by (apply nth_error_Some; congruence). destruct (He' i ltac:(lia)) as (x' & X' & E'). congruence.
    + assert (S a < n)%nat by (destruct (Nat.eq_dec (S a) n) as [N|]; [rewrite N in K; congruence|lia]). apply IH; [lia|lia|exact He'].
  - right. exists a. split; [reflexivity|]. split; [exact He|]. exists q, p, r. auto.
Qed.
End Search.

(** What the writer does to the group it is working on. *)
Definition found_of (mode : gmode) (mask : Z) (sl : list (option qitem)) (active next gend : Z) : option (option Z) :=
  match mode with RoundRobin => rr_search (length sl) mask sl active next | Serial => serial_search (length sl) mask sl gend active end.

Lemma nth_empty_upd l i q r j : nth_error l i = Some q -> nth_empty l j -> nth_empty (upd l i (set_pkts q r)) j \/ j = i.
Proof.
  intros H (x & X & E). destruct (Nat.eq_dec j i) as [->|N]; [auto|]. left. exists x. rewrite upd_other by auto. auto.
Qed.

Lemma take_group mask sl st g q p r :
  ag_ok st g -> running g -> nth_error (ag_items g) (ag_act g) = Some q -> q_pkts q = p :: r ->
  let l1 := upd (ag_items g) (ag_act g) (set_pkts q r) in
  (length (ag_items g) <= length sl)%nat ->
  (forall i x, nth_error l1 i = Some x -> get_queue mask sl (w64 (st + Z.of_nat i)) = Some x) ->
  (forall i j, (i <= length l1)%nat -> (j <= length l1)%nat -> w64 (st + Z.of_nat i) = w64 (st + Z.of_nat j) -> i = j) ->
  (found_of (ag_mode g) mask sl (w64 (st + Z.of_nat (ag_act g))) (q_next q) (q_end q) = Some None /\ exhausted l1
   /\ ag_left g = [(p, q_sub q)]) \/
  (exists b, found_of (ag_mode g) mask sl (w64 (st + Z.of_nat (ag_act g))) (q_next q) (q_end q) = Some (Some (w64 (st + Z.of_nat b)))
     /\ nth_ready l1 b /\ (ag_mode g = Serial -> forall i, (i < b)%nat -> nth_empty l1 i)
     /\ ag_left g = (p, q_sub q) :: left_of (ag_mode g) b l1
     /\ (ag_mode g = RoundRobin -> links st (upd l1 (ag_act g) (set_links (set_pkts q r) (q_end q) (w64 (st + Z.of_nat b)))))).
Proof.
  intros OK R Hq Hp l1 Hlen HG Hinj. set (a := ag_act g) in *. set (l := ag_items g) in *.
  assert (L1 : length l1 = length l) by apply upd_length. rewrite L1 in Hinj.
  destruct (running_left g R) as (q' & p' & r' & Hq' & Hp' & HL). fold a l in Hq', HL. rewrite Hq in Hq'. injection Hq' as <-. rewrite Hp in Hp'. injection Hp' as <- <-.
  fold l1 in HL. assert (Ha : (a < length l)%nat) by (apply nth_error_Some; congruence).
  pose proof (ok_fields _ _ OK) as OF. fold l in OF. rewrite Forall_forall in OF. destruct (OF q (nth_error_In _ _ Hq)) as [Om Oe].
  destruct R as [_ RS]. fold a l in RS.
  rewrite <- L1 in Hinj, Ha. destruct (ag_mode g) eqn:Mo; cbn [found_of].
  - pose proof (ok_links _ _ OK Mo) as OL. fold l in OL. destruct (OL a q Hq) as (d & Hd & Hn & Hb). rewrite Hn.
    assert (EMP : forall i e, (1 <= e)%nat -> nth_empty l ((i + e) mod length l) -> ((i + e) mod length l)%nat <> a -> nth_empty l1 ((i + e) mod length l1)).
    { intros i e _ HE N. rewrite L1. destruct (nth_empty_upd l a q r _ Hq HE); auto. congruence. }
    assert (NA : forall e, (1 <= e < length l)%nat -> ((a + e) mod length l)%nat <> a).
    { intros e He K. destruct (Nat.lt_ge_cases (a + e) (length l)) as [B|B]; [rewrite Nat.mod_small in K by lia; lia|].
      replace (a + e)%nat with (a + e - length l + 1 * length l)%nat in K by lia. rewrite Nat.mod_add, Nat.mod_small in K by lia. lia. }
    destruct (rr_search_spec mask sl st l1 HG Hinj a Ha) with (fuel := length sl) (d := d) as [[S1 S2]|(d' & S1 & S2 & S3 & S4)].
    + intros d1 q1 Hd1 Q1. rewrite L1 in Hd1, Q1 |- *. pose proof (NA d1 Hd1) as N1. unfold l1 in Q1. rewrite upd_other in Q1 by exact N1.
      destruct (OL _ q1 Q1) as (d2 & B1 & B2 & B3). exists d2. split; [lia|].
      assert (IDX : forall e, ((((a + d1) mod length l) + e) mod length l = (a + d1 + e) mod length l)%nat) by (intro e; apply Nat.add_mod_idemp_l; lia).
      assert (D : (d1 + d2 <= length l)%nat).
      { destruct (Nat.le_gt_cases (d1 + d2) (length l)); [assumption|exfalso]. pose proof (B3 (length l - d1)%nat ltac:(lia)) as HE. rewrite IDX in HE.
        replace (a + d1 + (length l - d1))%nat with (a + 1 * length l)%nat in HE by lia. rewrite Nat.mod_add, Nat.mod_small in HE by lia.
        destruct HE as (x & X & E). congruence. }
      split; [exact D|]. split; [now rewrite B2, IDX|]. intros e He. rewrite <- L1. apply EMP; [lia| |apply NA; lia].
      pose proof (B3 (e - d1)%nat ltac:(lia)) as HE. rewrite IDX in HE. replace (a + d1 + (e - d1))%nat with (a + e)%nat in HE by lia. exact HE.
    + lia.
    + lia.
    + intros e He. apply EMP; [lia|apply Hb; lia|apply NA; lia].
    + left. rewrite L1 in S1. split; [exact S1|]. split; [exact S2|]. rewrite HL. now rewrite rr_rest_empty by now apply exhausted_lists.
    + right. exists ((a + d') mod length l)%nat. rewrite L1 in S1, S3, S4. split; [exact S1|]. split; [exact S4|]. split; [discriminate|].
      split.
      * rewrite HL. f_equal. cbn [left_of].
        assert (W : rr_rest (S a) (lists l1) = rr_rest ((S a) mod length (lists l1)) (lists l1)) by (symmetry; apply rr_rest_wrap; rewrite lists_length; lia).
        rewrite W. rewrite (rr_rest_cycs (S a) (lists l1) (d' - 1)); [|rewrite lists_length; lia|].
        -- rewrite lists_length, L1. f_equal. f_equal. lia.
        -- intros e He. rewrite lists_length, L1. apply lists_empty. replace (S a + e)%nat with (a + (S e))%nat by lia. apply S3. lia.
      * intros _. set (q2 := set_links (set_pkts q r) (q_end q) (w64 (st + Z.of_nat ((a + d') mod length l)))).
        assert (EM2 : forall i, nth_empty l1 i -> nth_empty (upd l1 a q2) i).
        { intros i (x & X & E). destruct (Nat.eq_dec i a) as [->|N]; [|exists x; rewrite upd_other by auto; auto].
          unfold l1 in X. rewrite upd_same in X by lia. injection X as <-. exists q2. split; [apply upd_same; lia|exact E]. }
        intros i x X. rewrite upd_length, L1. destruct (Nat.eq_dec i a) as [->|N].
        -- rewrite upd_same in X by lia. injection X as <-. exists d'. split; [lia|]. split; [reflexivity|]. intros e He. apply EM2. apply S3. lia.
        -- rewrite upd_other in X by auto. unfold l1 in X. rewrite upd_other in X by auto. destruct (OL i x X) as (dx & B1 & B2 & B3).
           exists dx. split; [exact B1|]. split; [exact B2|]. intros e He. apply EM2. specialize (B3 e He). destruct (nth_empty_upd l a q r _ Hq B3) as [C|C]; [exact C|].
           rewrite C in B3. destruct B3 as (y & Y & E). congruence.
  - rewrite Oe. fold l. rewrite <- L1.
    destruct (serial_search_spec mask sl st l1 HG Hinj (length sl) a Ha) as [[S1 S2]|(b & S1 & S2 & S3)].
    + lia.
    + intros i Hi. destruct (nth_empty_upd l a q r i Hq (RS eq_refl i Hi)) as [C|C]; [exact C|lia].
    + left. split; [exact S1|]. split; [exact S2|]. rewrite HL. now rewrite concat_empty by now apply exhausted_lists.
    + right. exists b. split; [exact S1|]. split; [exact S3|]. split; [auto|]. split; [exact HL|discriminate].
Qed.

(** *** The invariant *)
Definition its (gs : list ag) : list qitem := flat_map ag_items gs.
Definition glen (gs : list ag) : Z := Z.of_nat (length (its gs)).
Fixpoint groups_ok (st : Z) (gs : list ag) : Prop :=
  match gs with [] => True | g :: r => ag_ok st g /\ groups_ok (st + Z.of_nat (length (ag_items g))) r end.
Definition done_b (l : list qitem) : bool := forallb (fun q => match q_pkts q with [] => true | _ => false end) l.
Definition gflight (st : Z) (g : ag) : list (Z * bool) :=
  match ag_out g with O => [] | S k => repeat (w64 st, false) k ++ [(w64 st, done_b (ag_items g))] end.
Fixpoint flights (st : Z) (gs : list ag) : list (Z * bool) :=
  match gs with [] => [] | g :: r => gflight st g ++ flights (st + Z.of_nat (length (ag_items g))) r end.
Definition pc_n (p : wpc) : nat := match p with WDone n _ _ => n | _ => O end.
Definition pc_hs (p : wpc) : list (Z * Z * Z) := match p with WDone _ hs _ => hs | _ => [] end.
Definition pc_ws (p : wpc) : list nat := match p with WDone _ _ ws => ws | _ => [] end.
Definition act_of (gs : list ag) : Z := match gs with [] => 0 | g :: _ => Z.of_nat (ag_act g) end.

Record qinv (p h : Z) (gF gI gM gN : list ag) (pend : list qitem) (size mask : Z) (sl : list (option qitem)) (tail head : Z) (w : writer) : Prop := {
  qi_p : 0 <= p <= 63;
  qi_mask : mask = 2 ^ p - 1;
  qi_size : 1 <= size <= 2 ^ p;
  qi_circ : circ p sl h (its (gF ++ gI ++ gM ++ gN) ++ pend);
  qi_cap : glen (gF ++ gI ++ gM ++ gN) <= size;
  qi_head : head = w64 h;
  qi_tail : tail = w64 (h + glen (gF ++ gI ++ gM ++ gN));
  qi_ok : groups_ok h (gF ++ gI ++ gM ++ gN);
  qi_F : Forall (fun g => exhausted (ag_items g) /\ ag_out g = O) gF;
  qi_I : Forall (fun g => exhausted (ag_items g) /\ (0 < ag_out g)%nat) gI;
  qi_M : match gM with [] => True | g :: r => running g /\ Forall fresh r end;
  qi_N : Forall fresh gN;
  qi_start : w_start w = w64 (h + glen (gF ++ gI));
  qi_act : w_active w = w64 (h + glen (gF ++ gI) + act_of gM);
  qi_wtail : w_tail w = w64 (h + glen (gF ++ gI ++ gM));
  qi_flight : w_flight w = flights h (gF ++ gI ++ gM);
  qi_fin : length gF = (w_fin w + pc_n (w_pc w))%nat;
  qi_empty : w_empty w = true -> gM = [] }.

(** The request being added. *)
Fixpoint new_items (mode : gmode) (T : Z) (hs : list heap_ref) : list qitem :=
  match hs with [] => [] | h :: r => new_item mode h (w64 T) :: new_items mode (T + 1) r end.
Definition is_add (p : upc) : bool := match p with UAdd _ _ _ _ _ _ _ => true | _ => false end.
Record adding (h T : Z) (pend : list qitem) (size nsub next step : Z) (rq : request) (todo : list heap_ref) (orig tail hd ncnt : Z) (added : list (heap_ref * Z)) : Prop := {
  ad_orig : orig = w64 T;
  ad_tail : tail = w64 (T + Z.of_nat (length pend));
  ad_head : exists h0, hd = w64 h0 /\ h0 <= h /\ T + Z.of_nat (length pend) - h0 <= size;
  ad_pend : pend = new_items (rq_mode rq) T (map fst added);
  ad_heaps : rq_heaps rq = map fst added ++ todo;
  ad_ne : rq_heaps rq <> [];
  ad_ok : forallb heap_ok (rq_heaps rq) = true;
  ad_cnts : on_cnts next step added = Some ncnt;
  ad_sub : forallb (fun x => (0 <=? h_sub (fst x)) && (h_sub (fst x) <? nsub)) added = true }.
Record linv (h T : Z) (pend : list qitem) (size nsub next step : Z) (lock : option nat) (threads : list upc) : Prop := {
  li_add : forall t p, nth_error threads t = Some p -> is_add p = true -> lock = Some t;
  li_lock : match lock with
            | None => pend = []
            | Some t => exists rq todo orig tail hd ncnt added, nth_error threads t = Some (UAdd rq todo orig tail hd ncnt added)
                          /\ adding h T pend size nsub next step rq todo orig tail hd ncnt added
            end;
  li_rej : forall t p, nth_error threads t = Some p -> match p with UReject _ _ o e | UUnwind o e => o = e | _ => True end }.

(** Waiters of flush. *)
Definition gwait (g : ag) : list nat := flat_map q_waiters (ag_items g).
Definition waits (gs : list ag) : list nat := flat_map gwait gs.
Definition occ (t : nat) (l : list nat) : nat := sumw (fun x => if Nat.eqb x t then 1%nat else O) l.
Definition flushing (threads : list upc) (t : nat) : nat := match nth_error threads t with Some (UFlush false) => 1%nat | _ => O end.
Record tinv (gs : list ag) (nhs : nat) (ws : list nat) (threads : list upc) (m : smon) : Prop := {
  ti_occ : forall t, (occ t (waits gs) + occ t ws = flushing threads t)%nat;
  ti_gs : forall j g t, nth_error gs j = Some g -> In t (gwait g) -> (sm_target m t <= sm_done m + nhs + j + 1)%nat;
  ti_ws : forall t, In t ws -> (sm_target m t <= sm_done m + nhs)%nat;
  ti_sig : forall t, nth_error threads t = Some (UFlush true) -> (sm_target m t <= sm_done m)%nat }.

(** The monitor. *)
Definition gbytes (l : list qitem) : Z := match l with q :: _ => q_bytes q | [] => 0 end.
Definition gerr (l : list qitem) : Z := match l with q :: _ => q_result q | [] => 0 end.
Definition mg_of (g : ag) : mgroup :=
  {| mg_id := ag_id g; mg_left := ag_left g; mg_out := ag_out g; mg_bytes := gbytes (ag_items g); mg_err := gerr (ag_items g) |}.
Definition hdone (x : Z * Z * Z) : mgroup := let '(id, r, b) := x in {| mg_id := id; mg_left := []; mg_out := 0; mg_bytes := b; mg_err := r |}.
Definition is_x (x y : Z * Z) : nat := if (fst x =? fst y) && (snd x =? snd y) then 1%nat else O.
Definition rejw (x : Z * Z) (p : upc) : nat := match p with UReject id err _ _ => is_x x (id, err) | _ => O end.
Record minv (gs : list ag) (hs : list (Z * Z * Z)) (io : list (Z * Z)) (threads : list upc) (next step : Z) (m : smon) : Prop := {
  mi_groups : sm_groups m = map hdone hs ++ map mg_of gs;
  mi_acc : sm_accepted m = (sm_done m + length hs + length gs)%nat;
  mi_rej : forall x, sumw (is_x x) (sm_rejected m) = (sumw (is_x x) io + sumw (rejw x) threads)%nat;
  mi_next : sm_next m = next; mi_step : sm_step m = step }.

(** Who is responsible for the next run of the writer. *)
Definition wakew (p : upc) : nat := match p with UWake => 1%nat | _ => O end.
Definition busy (p : wpc) : nat := match p with WIdle => O | _ => 1%nat end.
Record kinv (gs : list ag) (pc : wpc) (need : bool) (posted : nat) (threads : list upc) : Prop := {
  ki_token : (posted + busy pc + (if need then 1 else 0) + sumw wakew threads = 1)%nat;
  ki_need : need = true -> gs = [] }.

Record binv (p h : Z) (gF gI gM gN : list ag) (pend : list qitem) (s : sst) (m : smon) : Prop := {
  b_q : qinv p h gF gI gM gN pend (s_size s) (s_mask s) (s_slots s) (s_tail s) (s_head s) (s_w s);
  b_l : linv h (h + glen (gF ++ gI ++ gM ++ gN)) pend (s_size s) (s_nsub s) (s_next s) (s_step s) (s_lock s) (s_threads s);
  b_t : tinv (gF ++ gI ++ gM ++ gN) (length (pc_hs (w_pc (s_w s)))) (pc_ws (w_pc (s_w s))) (s_threads s) m;
  b_m : minv (gF ++ gI ++ gM ++ gN) (pc_hs (w_pc (s_w s))) (s_io s) (s_threads s) (s_next s) (s_step s) m;
  b_k : kinv (gF ++ gI ++ gM ++ gN) (w_pc (s_w s)) (s_need s) (s_posted s) (s_threads s) }.
Definition sinv (s : sst) (m : smon) : Prop := exists p h gF gI gM gN pend, binv p h gF gI gM gN pend s m.

(** *** Lists of groups *)
Lemma its_app a b : its (a ++ b) = its a ++ its b.
Proof. apply flat_map_app. Qed.
Lemma glen_app a b : glen (a ++ b) = glen a + glen b.
Proof. unfold glen. rewrite its_app, app_length. lia. Qed.
Lemma glen_cons g r : glen (g :: r) = Z.of_nat (length (ag_items g)) + glen r.
Proof. unfold glen. cbn [its flat_map]. rewrite app_length. unfold its. lia. Qed.
Lemma glen_nil : glen [] = 0. Proof. reflexivity. Qed.
Lemma glen_nonneg a : 0 <= glen a. Proof. unfold glen. lia. Qed.
Lemma groups_ok_app a : forall st b, groups_ok st (a ++ b) <-> groups_ok st a /\ groups_ok (st + glen a) b.
Proof.
  induction a as [|g a IH]; intros st b; cbn [app groups_ok].
  - rewrite glen_nil, Z.add_0_r. tauto.
  - rewrite IH, glen_cons, Z.add_assoc. tauto.
Qed.
Lemma flights_app a : forall st b, flights st (a ++ b) = flights st a ++ flights (st + glen a) b.
Proof.
  induction a as [|g a IH]; intros st b; cbn [app flights].
  - now rewrite glen_nil, Z.add_0_r.
  - rewrite IH, glen_cons, Z.add_assoc. now rewrite app_assoc.
Qed.
Lemma flights_zero st a : Forall (fun g => ag_out g = O) a -> flights st a = [].
Proof. revert st. induction a as [|g a IH]; intros st H; cbn [flights]; [reflexivity|]. inversion H as [|? ? E R]; subst. unfold gflight. rewrite E. now apply IH. Qed.
Lemma gs_nil st gs : groups_ok st gs -> glen gs = 0 -> gs = [].
Proof.
  destruct gs as [|g gs]; [reflexivity|]. cbn [groups_ok]. rewrite glen_cons. intros [OK _] E. pose proof (ok_ne _ _ OK). pose proof (glen_nonneg gs).
  destruct (ag_items g); cbn [length] in *; [congruence|lia].
Qed.
Lemma fresh_out gs : Forall fresh gs -> Forall (fun g => ag_out g = O) gs.
Proof. apply Forall_impl. intros g (_ & _ & H). exact H. Qed.
Lemma act_fresh gs : Forall fresh gs -> act_of gs = 0.
Proof. destruct 1 as [|g r (_ & E & _)]; cbn [act_of]; [reflexivity|]. now rewrite E. Qed.
Lemma done_b_iff l : done_b l = true <-> exhausted l.
Proof.
  unfold done_b, exhausted. rewrite forallb_forall, Forall_forall. split; intros H x X; specialize (H x X); destruct (q_pkts x); congruence.
Qed.
Lemma running_not_done g : running g -> done_b (ag_items g) = false.
Proof.
  intros [(q & p & r & H & E) _]. destruct (done_b (ag_items g)) eqn:D; [|reflexivity]. apply done_b_iff in D. unfold exhausted in D. rewrite Forall_forall in D.
  specialize (D q (nth_error_In _ _ H)). congruence.
Qed.
Lemma repeat_snoc {A} (x : A) k : repeat x k ++ [x] = x :: repeat x k.
Proof. induction k as [|k IH]; cbn [repeat app]; [reflexivity|]. now rewrite IH. Qed.
Lemma gflight_running st g : running g -> gflight st g = repeat (w64 st, false) (ag_out g).
Proof. intro R. unfold gflight. rewrite (running_not_done g R). destruct (ag_out g) as [|k]; cbn [repeat]; [reflexivity|]. apply repeat_snoc. Qed.
Lemma waits_app a b : waits (a ++ b) = waits a ++ waits b.
Proof. apply flat_map_app. Qed.
Lemma occ_app t a b : occ t (a ++ b) = (occ t a + occ t b)%nat.
Proof. apply sumw_app. Qed.
Lemma occ_in t l : In t l <-> (0 < occ t l)%nat.
Proof.
  unfold occ. induction l as [|x l IH]; cbn [In sumw]; [lia|]. rewrite IH. destruct (Nat.eqb_spec x t); intuition lia.
Qed.

(** *** Frames *)
Lemma flushing_upd threads t p t' : (t < length threads)%nat ->
  flushing (upd threads t p) t' = if Nat.eqb t' t then match p with UFlush false => 1%nat | _ => O end else flushing threads t'.
Proof.
  intro H. unfold flushing. rewrite nth_upd. destruct (Nat.eqb_spec t' t) as [E'|]; [subst t'|reflexivity]. destruct (Nat.ltb_spec t (length threads)); [reflexivity|lia].
Qed.
Definition plain (p : upc) : bool := match p with UFlush _ => false | _ => true end.
Lemma tinv_thread gs nhs ws threads m t p p' : tinv gs nhs ws threads m -> nth_error threads t = Some p -> plain p = true -> plain p' = true ->
  tinv gs nhs ws (upd threads t p') m.
Proof.
  intros [H1 H2 H3 H4] Ht P P'. assert (L : (t < length threads)%nat) by (apply nth_error_Some; congruence). constructor; auto.
  - intro t'. rewrite H1, flushing_upd by auto. destruct (Nat.eqb_spec t' t) as [E'|]; [subst t'|reflexivity]. unfold flushing. rewrite Ht.
    destruct p; try discriminate P; destruct p'; try discriminate P'; reflexivity.
  - intros t' Q. rewrite nth_upd in Q. destruct (Nat.eqb_spec t' t) as [E'|]; [subst t'|now apply H4]. destruct (t <? length threads)%nat; [|discriminate].
    injection Q as ->. discriminate P'.
Qed.
Lemma minv_thread gs hs io threads next step m t p p' : minv gs hs io threads next step m -> nth_error threads t = Some p ->
  (forall x, rejw x p = rejw x p') -> minv gs hs io (upd threads t p') next step m.
Proof.
  intros [H1 H2 H3 H4 H5] Ht E. constructor; auto. intro x. rewrite H3. pose proof (sumw_upd (rejw x) threads t p p' Ht). rewrite E in H. lia.
Qed.
Lemma kinv_thread gs pc need posted threads t p p' : kinv gs pc need posted threads -> nth_error threads t = Some p -> wakew p = wakew p' ->
  kinv gs pc need posted (upd threads t p').
Proof. intros [H1 H2] Ht E. constructor; auto. pose proof (sumw_upd wakew threads t p p' Ht). lia. Qed.
Lemma linv_thread h T pend size nsub next step lock threads t p p' : linv h T pend size nsub next step lock threads -> nth_error threads t = Some p ->
  is_add p = false -> is_add p' = false -> (match p' with UReject _ _ o e | UUnwind o e => o = e | _ => True end) ->
  linv h T pend size nsub next step lock (upd threads t p').
Proof.
  intros [H1 H2 H3] Ht A A' R. assert (L : (t < length threads)%nat) by (apply nth_error_Some; congruence). constructor.
  - intros t' q Q. rewrite nth_upd in Q. destruct (Nat.eqb_spec t' t) as [E'|]; [subst t'|now apply H1]. destruct (t <? length threads)%nat; [|discriminate].
    injection Q as <-. congruence.
  - destruct lock as [u|]; [|exact H2]. destruct H2 as (rq & todo & orig & tail & hd & ncnt & added & U & AD). exists rq, todo, orig, tail, hd, ncnt, added.
    split; [|exact AD]. rewrite upd_other; [exact U|]. intros ->. rewrite U in Ht. injection Ht as <-. discriminate A.
  - intros t' q Q. rewrite nth_upd in Q. destruct (Nat.eqb_spec t' t) as [E'|]; [subst t'|now apply (H3 t')]. destruct (t <? length threads)%nat; [|discriminate].
    injection Q as <-. exact R.
Qed.

(** *** Access to a group in the array *)
Lemma circ_at p sl h A l B i q : 0 <= p <= 63 -> circ p sl h (A ++ l ++ B) -> nth_error l i = Some q ->
  get_queue (2 ^ p - 1) sl (w64 (h + Z.of_nat (length A) + Z.of_nat i)) = Some q.
Proof.
  intros Hp C H. rewrite <- Z.add_assoc, <- Nat2Z.inj_add. apply (circ_get p Hp sl h _ _ q C).
  rewrite nth_error_app2 by lia. replace (length A + i - length A)%nat with i by lia. rewrite nth_error_app1; [exact H|]. apply nth_error_Some. congruence.
Qed.
Lemma circ_put p sl h A l B i q : 0 <= p <= 63 -> circ p sl h (A ++ l ++ B) -> (i < length l)%nat ->
  circ p (put_queue (2 ^ p - 1) sl (w64 (h + Z.of_nat (length A) + Z.of_nat i)) q) h (A ++ upd l i q ++ B).
Proof.
  intros Hp C H. rewrite <- Z.add_assoc, <- Nat2Z.inj_add. pose proof (circ_set p Hp sl h _ (length A + i) q C) as K.
  rewrite upd_app2, upd_app1 in K by auto. apply K. rewrite !app_length. lia.
Qed.
Lemma circ_len p sl h l : circ p sl h l -> Z.of_nat (length l) <= 2 ^ p.
Proof. intros (_ & _ & H & _). exact H. Qed.
Lemma circ_slots p sl h l : circ p sl h l -> length sl = Z.to_nat (2 ^ p).
Proof. intros (H & _). exact H. Qed.
Lemma pow_63 p : 0 <= p <= 63 -> 0 < 2 ^ p <= 2 ^ 63.
Proof. intro H. split; [apply Z.pow_pos_nonneg; lia|apply Z.pow_le_mono_r; lia]. Qed.

Definition good (s : sst) (m : smon) (r : sres) : Prop :=
  match r with
  | Blocked => True
  | Fault => False
  | Ok s' e => (forall id err k, In (EReject id err k) e -> k = O) ->
      exists m', smon_run (s_nsub s) m e = Some m' /\ sinv s' m' /\ s_nsub s' = s_nsub s /\ s_size s' = s_size s
  end.

Lemma b2n_eq (x : Z * Z) y : is_x x y = is_x y x.
Proof. unfold is_x. rewrite (Z.eqb_sym (fst x)), (Z.eqb_sym (snd x)). reflexivity. Qed.

(** *** User threads *)
Lemma send_good s m t rq : sinv s m -> good s m (s_step_fn s (LSend t rq)).
Proof.
  intros (p & h & gF & gI & gM & gN & pend & [Q L T Mi K]). cbn [s_step_fn]. destruct (nth_error (s_threads s) t) as [[]|] eqn:Ht; try exact Logic.I.
  destruct (request_ok rq) eqn:RO; cbn [negb]; [|exact Logic.I]. destruct (rq_heaps rq) as [|h0 hs] eqn:RH.
  - cbn [good]. intros _. eexists. cbn [smon_run smon_step]. split; [reflexivity|]. split; [|split; reflexivity].
    exists p, h, gF, gI, gM, gN, pend. constructor; cbn [set_io s_size s_mask s_slots s_tail s_head s_w s_nsub s_next s_step s_lock s_threads s_io s_need s_posted]; auto.
    + destruct T as [T1 T2 T3 T4]. constructor; auto.
    + destruct Mi as [M1 M2 M3 M4 M5]. constructor; auto. intro x. cbn [sm_rejected]. rewrite !sumw_app, M3. lia.
  - destruct (s_lock s) eqn:LK; [exact Logic.I|]. cbn [good]. intros _. exists m. split; [reflexivity|]. split; [|split; reflexivity].
    exists p, h, gF, gI, gM, gN, pend. constructor; cbn [set_thread set_lock s_size s_mask s_slots s_tail s_head s_w s_nsub s_next s_step s_lock s_threads s_io s_need s_posted]; auto.
    + assert (Lt : (t < length (s_threads s))%nat) by (apply nth_error_Some; congruence). destruct L as [L1 L2 L3]. constructor.
      * intros t' q Hq A. rewrite nth_upd in Hq. destruct (Nat.eqb_spec t' t) as [E|E]; [now rewrite E|]. specialize (L1 t' q Hq A). congruence.
      * do 7 eexists. split; [now apply upd_same|]. subst pend. destruct Q. constructor; cbn [length map new_items]; rewrite ?Z.add_0_r; auto.
        -- exists h. split; [auto|]. split; lia.
        -- congruence.
        -- unfold request_ok in RO. rewrite RH in RO. apply andb_prop in RO as [RO _]. now rewrite RH.
      * intros t' q Hq. rewrite nth_upd in Hq. destruct (Nat.eqb_spec t' t) as [E|E]; [|now apply (L3 t')].
        destruct (t <? length (s_threads s))%nat; [|discriminate]. injection Hq as <-. exact Logic.I.
    + eapply tinv_thread; eauto.
    + eapply minv_thread; eauto.
    + eapply kinv_thread; eauto.
Qed.

Lemma new_items_length mode hs : forall T, length (new_items mode T hs) = length hs.
Proof. induction hs as [|h hs IH]; intro T; cbn [new_items length]; auto. Qed.
Lemma new_items_snoc mode hs : forall T h, new_items mode T (hs ++ [h]) = new_items mode T hs ++ [new_item mode h (w64 (T + Z.of_nat (length hs)))].
Proof.
  induction hs as [|x hs IH]; intros T h; cbn [app new_items length]; [now rewrite Z.add_0_r|]. rewrite IH. replace (T + Z.of_nat (S (length hs))) with (T + 1 + Z.of_nat (length hs)) by lia. reflexivity.
Qed.
Lemma on_cnts_app step a : forall next b, on_cnts next step (a ++ b) = match on_cnts next step a with None => None | Some n => on_cnts n step b end.
Proof.
  induction a as [|[h c] a IH]; intros next b; cbn [app on_cnts]; [reflexivity|]. destruct (h_cnt h <? 0).
  - destruct (c =? next mod 2 ^ h_hab h); [apply IH|reflexivity].
  - destruct ((c =? h_cnt h) && (c <? 2 ^ h_hab h)); [apply IH|reflexivity].
Qed.

(** Destroying the items under construction. *)
Lemma abort_ok p sl : 0 <= p <= 63 -> length sl = Z.to_nat (2 ^ p) -> forall k i, (Z.of_nat k <= 2 ^ p) ->
  (forall j, (j < k)%nat -> exists q, nth_error sl (Z.to_nat ((i + Z.of_nat j) mod 2 ^ p)) = Some (Some q)) ->
  forall fuel, (k <= fuel)%nat -> exists sl', abort fuel (2 ^ p - 1) sl (w64 i) (w64 (i + Z.of_nat k)) = Some sl'.
Proof.
  intros Hp Hl k. pose proof (pow_63 p Hp) as HP. revert sl Hl. induction k as [|k IH]; intros sl Hl i Hk HS fuel Hf.
  - rewrite Z.add_0_r. exists sl. destruct fuel; cbn [abort]; now rewrite Z.eqb_refl.
  - destruct fuel as [|fuel]; [lia|]. cbn [abort].
    destruct (Z.eqb_spec (w64 i) (w64 (i + Z.of_nat (S k)))) as [E|E]; [apply w64_inj in E; lia|].
    unfold destroy. rewrite slot_w64 by lia. destruct (HS O ltac:(lia)) as [q0 H0]. rewrite Z.add_0_r in H0. rewrite H0.
    rewrite w64_add. replace (i + Z.of_nat (S k)) with (i + 1 + Z.of_nat k) by lia. apply IH; [now rewrite upd_length|lia| |lia].
    intros j Hj. destruct (HS (S j) ltac:(lia)) as [q Hq]. exists q. replace (i + 1 + Z.of_nat j) with (i + Z.of_nat (S j)) by lia.
    rewrite upd_other; [exact Hq|]. replace (i mod 2 ^ p) with ((i + 0) mod 2 ^ p) by now rewrite Z.add_0_r. apply (slot_ne p Hp); lia.
Qed.

Lemma abort_pend p h A pend sl fuel : 0 <= p <= 63 -> circ p sl h (A ++ pend) -> (length pend <= fuel)%nat ->
  exists sl', abort fuel (2 ^ p - 1) sl (w64 (h + Z.of_nat (length A))) (w64 (h + Z.of_nat (length A) + Z.of_nat (length pend))) = Some sl'.
Proof.
  intros Hp (L & H0 & Hn & HG & HF) Hf. apply abort_ok; auto.
  - rewrite app_length in Hn. lia.
  - intros j Hj. destruct (nth_error pend j) as [q|] eqn:E; [|apply nth_error_None in E; lia]. exists q.
    replace (h + Z.of_nat (length A) + Z.of_nat j) with (h + Z.of_nat (length A + j)) by lia. apply HG.
    rewrite nth_error_app2 by lia. now replace (length A + j - length A)%nat with j by lia.
Qed.

Lemma user_add_good s m t rq hp todo orig tail hd ncnt added : sinv s m ->
  nth_error (s_threads s) t = Some (UAdd rq (hp :: todo) orig tail hd ncnt added) ->
  good s m (user_add s t rq hp todo orig tail hd ncnt added).
Proof.
  intros (p & h & gF & gI & gM & gN & pend & [Q L T Mi K]) Ht. pose proof (li_add _ _ _ _ _ _ _ _ _ L t _ Ht eq_refl) as LK.
  pose proof (li_lock _ _ _ _ _ _ _ _ _ L) as LL. rewrite LK in LL. destruct LL as (rq' & todo' & orig' & tail' & hd' & ncnt' & added' & Ht' & AD).
  rewrite Ht in Ht'. injection Ht' as <- <- <- <- <- <- <-.
  assert (Lt : (t < length (s_threads s))%nat) by (apply nth_error_Some; congruence).
  pose proof Q as [Qp Qm Qs Qc Qcap Qh Qt Qok QF QI QM QN Qst Qa Qw Qf Qfi Qe].
  destruct AD as [A1 A2 A3 A4 A5 A6 A7 A8 A9].
  set (gs := gF ++ gI ++ gM ++ gN) in *. set (TT := h + glen gs) in *.
  assert (LP : length pend = length added) by (rewrite A4, new_items_length, map_length; reflexivity).
  assert (REJ : forall err b, good s m
    (match (if b && negb (rq_single rq) then abort (length (rq_heaps rq)) (s_mask s) (s_slots s) orig tail else Some (s_slots s)) with
     | None => Fault
     | Some sl' => Ok (set_thread (set_lock (set_slots s sl') None) t (if rq_single rq then UReject (rq_id rq) err tail tail else UReject (rq_id rq) err orig tail))
                      [EReject (rq_id rq) err (length added)]
     end)).
  { intros err b.
    assert (AB : exists sl', abort (length (rq_heaps rq)) (s_mask s) (s_slots s) orig tail = Some sl').
    { rewrite Qm, A1, A2. unfold TT, glen. apply (abort_pend p h (its gs) pend); auto. rewrite A5, LP, app_length, map_length. lia. }
    assert (CASE : forall sl', (added = [] -> sl' = s_slots s) -> good s m
       (Ok (set_thread (set_lock (set_slots s sl') None) t (if rq_single rq then UReject (rq_id rq) err tail tail else UReject (rq_id rq) err orig tail))
           [EReject (rq_id rq) err (length added)])).
    { intros sl' ES. cbn [good]. intro CL. specialize (CL _ _ _ (or_introl eq_refl)). assert (AE : added = []) by (destruct added; [reflexivity|discriminate]).
      specialize (ES AE). subst sl'. rewrite AE in *. assert (PE : pend = []) by (destruct pend; [reflexivity|discriminate]). rewrite PE in *. cbn [length] in *.
      assert (OT : orig = tail) by (rewrite A1, A2; f_equal; lia). rewrite <- OT.
      replace (if rq_single rq then UReject (rq_id rq) err orig orig else UReject (rq_id rq) err orig orig) with (UReject (rq_id rq) err orig orig) by (destruct (rq_single rq); reflexivity).
      eexists. cbn [smon_run smon_step]. split; [reflexivity|]. split; [|split; reflexivity].
      exists p, h, gF, gI, gM, gN, []. fold gs. constructor; cbn [set_thread set_lock set_slots s_size s_mask s_slots s_tail s_head s_w s_nsub s_next s_step s_lock s_threads s_io s_need s_posted]; fold gs; auto.
      - destruct L as [L1 L2 L3]. constructor; auto.
        + intros t' q Hq A. rewrite nth_upd in Hq. destruct (Nat.eqb_spec t' t) as [E|E].
          * destruct (t <? length (s_threads s))%nat; [|discriminate]. injection Hq as Hq. rewrite <- Hq in A. discriminate A.
          * specialize (L1 t' q Hq A). rewrite LK in L1. congruence.
        + intros t' q Hq. rewrite nth_upd in Hq. destruct (Nat.eqb_spec t' t) as [E|E]; [|now apply (L3 t')].
          destruct (t <? length (s_threads s))%nat; [|discriminate]. injection Hq as <-. reflexivity.
      - assert (T' : tinv gs (length (pc_hs (w_pc (s_w s)))) (pc_ws (w_pc (s_w s))) (upd (s_threads s) t (UReject (rq_id rq) err orig orig)) m)
          by (eapply tinv_thread; eauto). destruct T' as [T1 T2 T3 T4]. constructor; auto.
      - destruct Mi as [M1 M2 M3 M4 M5]. constructor; auto. intro x. cbn [sm_rejected]. rewrite sumw_app, M3. cbn [sumw].
        pose proof (sumw_upd (rejw x) (s_threads s) t _ (UReject (rq_id rq) err orig orig) Ht) as U. cbn [rejw] in U. lia.
      - eapply kinv_thread; eauto. }
    destruct (b && negb (rq_single rq)) eqn:BB.
    - destruct AB as [sl' AB]. rewrite AB. apply CASE. intro AE. rewrite AE in LP. cbn [length] in LP.
      assert (OT : orig = tail) by (rewrite A1, A2, LP; f_equal; lia). rewrite OT in AB. destruct (length (rq_heaps rq)); cbn [abort] in AB; rewrite Z.eqb_refl in AB; congruence.
    - apply CASE. reflexivity. }
  unfold user_add. cbv zeta.
  destruct (Z.leb_spec (s_nsub s) (h_sub hp)) as [H1|H1]; [apply REJ|].
  destruct (Z.eqb_spec (w64 (tail - hd)) (s_size s)) as [H2|H2]; [apply REJ|].
  destruct (negb (h_cnt hp <? 0) && (2 ^ h_hab hp - 1 <? h_cnt hp)) eqn:H3; [apply (REJ err_invalid false)|]. clear REJ.
  destruct A3 as (h0 & A31 & A32 & A33). pose proof (pow_63 p Qp) as HP.
  assert (ROOM : TT + Z.of_nat (length pend) - h0 < s_size s).
  { rewrite A2, A31, w64_sub2, w64_small in H2 by (unfold TT; pose proof (glen_nonneg gs); lia). lia. }
  assert (PUSH : Z.of_nat (length (its gs ++ pend)) < 2 ^ p).
  { rewrite app_length, Nat2Z.inj_add. change (Z.of_nat (length (its gs))) with (glen gs). unfold TT in ROOM. lia. }
  destruct (circ_push p Qp _ _ _ (new_item (rq_mode rq) hp tail) Qc PUSH) as (sl' & CS & CC).
  assert (IDX : tail = w64 (h + Z.of_nat (length (its gs ++ pend)))) by (rewrite A2; unfold TT, glen; rewrite app_length; f_equal; lia).
  rewrite Qm. rewrite IDX at 1. rewrite CS. cbn [good]. intros _. exists m. split; [reflexivity|]. split; [|split; reflexivity].
  assert (HO : heap_ok hp = true) by (rewrite A5, forallb_app in A7; apply andb_prop in A7 as [_ A7]; cbn [forallb] in A7; now apply andb_prop in A7 as [A7 _]).
  unfold heap_ok in HO. apply andb_prop in HO as [HO HO1]. apply andb_prop in HO as [HO HO2]. apply andb_prop in HO as [HO HO3]. apply andb_prop in HO as [HO HO4].
  apply Z.ltb_lt in HO1, HO3, HO4. apply Z.leb_le in HO2.
  exists p, h, gF, gI, gM, gN, (pend ++ [new_item (rq_mode rq) hp tail]). fold gs.
  constructor; cbn [set_thread set_lock set_slots s_size s_mask s_slots s_tail s_head s_w s_nsub s_next s_step s_lock s_threads s_io s_need s_posted]; fold gs; auto.
  - constructor; auto. fold gs. now rewrite app_assoc.
  - fold TT. destruct L as [L1 L2 L3]. rewrite LK. constructor.
    + intros t' q Hq A. rewrite nth_upd in Hq. destruct (Nat.eqb_spec t' t) as [E|E]; [now rewrite E|]. specialize (L1 t' q Hq A). now rewrite LK in L1.
    + do 7 eexists. split; [now apply upd_same|]. constructor; auto.
      * rewrite app_length. cbn [length]. rewrite A2, w64_add. f_equal. lia.
      * exists h0. rewrite app_length. cbn [length]. split; [auto|]. split; lia.
      * rewrite map_app. cbn [map fst]. rewrite new_items_snoc, <- A4, map_length, <- LP. now rewrite A2.
      * rewrite map_app. cbn [map fst]. rewrite <- app_assoc. exact A5.
      * rewrite on_cnts_app, A8. cbn [on_cnts]. destruct (Z.ltb_spec (h_cnt hp) 0) as [AU|AU].
        -- replace (2 ^ h_hab hp - 1) with (Z.ones (h_hab hp)) by (rewrite Z.ones_equiv; lia). rewrite Z.land_ones by lia. rewrite Z.eqb_refl. reflexivity.
        -- cbn [negb andb] in H3. apply Z.ltb_ge in H3. rewrite Z.eqb_refl. destruct (Z.ltb_spec (h_cnt hp) (2 ^ h_hab hp)); [reflexivity|lia].
      * rewrite forallb_app, A9. cbn [forallb fst]. destruct (Z.leb_spec 0 (h_sub hp)); [|lia]. destruct (Z.ltb_spec (h_sub hp) (s_nsub s)); [reflexivity|lia].
    + intros t' q Hq. rewrite nth_upd in Hq. destruct (Nat.eqb_spec t' t) as [E|E]; [|now apply (L3 t')].
      destruct (t <? length (s_threads s))%nat; [|discriminate]. injection Hq as <-. exact Logic.I.
  - eapply tinv_thread; eauto.
  - eapply minv_thread; eauto.
  - eapply kinv_thread; eauto.
Qed.

(** *** Committing a request *)
Definition link_at (mode : gmode) (T n k : Z) : Z := if k + 1 =? n then match mode with RoundRobin => w64 T | Serial => w64 (T + k) end else w64 (T + k + 1).
Fixpoint relinked (mode : gmode) (T n k : Z) (l : list qitem) : list qitem :=
  match l with [] => [] | q :: r => set_links q (w64 (T + n)) (link_at mode T n k) :: relinked mode T n (k + 1) r end.
Lemma relinked_length mode T n l : forall k, length (relinked mode T n k l) = length l.
Proof. induction l as [|q l IH]; intro k; cbn [relinked length]; auto. Qed.
Lemma relinked_nth mode T n l : forall k i q, nth_error (relinked mode T n k l) i = Some q ->
  exists q0, nth_error l i = Some q0 /\ q = set_links q0 (w64 (T + n)) (link_at mode T n (k + Z.of_nat i)).
Proof.
  induction l as [|x l IH]; intros k [|i] q H; cbn [relinked nth_error] in *; try discriminate.
  - injection H as <-. exists x. rewrite Z.add_0_r. auto.
  - apply IH in H as (q0 & H & ->). exists q0. split; [exact H|]. do 2 f_equal. lia.
Qed.
Lemma relinked_forall (P : qitem -> Prop) mode T n l : (forall q e x, P q -> P (set_links q e x)) -> forall k, Forall P l -> Forall P (relinked mode T n k l).
Proof. intros HP. induction l as [|q l IH]; intros k H; cbn [relinked]; [constructor|]. inversion H; subst. constructor; auto. Qed.
Lemma relinked_map {B} (f : qitem -> B) mode T n l : (forall q e x, f (set_links q e x) = f q) -> forall k, map f (relinked mode T n k l) = map f l.
Proof. intros HF. induction l as [|q l IH]; intros k; cbn [relinked map]; [reflexivity|]. now rewrite HF, IH. Qed.

Lemma relink_spec p h mode A T n : 0 <= p <= 63 -> T = h + Z.of_nat (length A) -> 0 <= n <= 2 ^ p -> forall rest fuel sl D,
  circ p sl h (A ++ D ++ rest) -> n = Z.of_nat (length D + length rest) -> (length rest <= fuel)%nat ->
  exists sl', relink fuel (2 ^ p - 1) sl mode (w64 T) (w64 (T + Z.of_nat (length D))) (w64 (T + n)) = Some sl'
    /\ circ p sl' h (A ++ D ++ relinked mode T n (Z.of_nat (length D)) rest).
Proof.
  intros Hp HT Hn. pose proof (pow_63 p Hp) as HP. induction rest as [|q rest IH]; intros fuel sl D C En Hf.
  - cbn [length] in En. rewrite Nat.add_0_r in En. exists sl. cbn [relinked]. split; [|exact C]. destruct fuel; cbn [relink]; rewrite En, Z.eqb_refl; reflexivity.
  - destruct fuel as [|fuel]; cbn [length] in *; [lia|]. cbn [relink].
    destruct (Z.eqb_spec (w64 (T + Z.of_nat (length D))) (w64 (T + n))) as [E|E]; [apply w64_inj in E; lia|].
    assert (G : get_queue (2 ^ p - 1) sl (w64 (T + Z.of_nat (length D))) = Some q).
    { rewrite HT. change (A ++ D ++ q :: rest) with (A ++ (D ++ q :: rest)) in C. rewrite <- (app_nil_r (D ++ q :: rest)) in C.
      apply (circ_at p sl h A (D ++ q :: rest) [] (length D) q Hp C). rewrite nth_error_app2, Nat.sub_diag by lia. reflexivity. }
    rewrite G. rewrite w64_add. set (q' := set_links q _ _).
    assert (EQ : q' = set_links q (w64 (T + n)) (link_at mode T n (Z.of_nat (length D)))).
    { unfold q', link_at. f_equal. destruct (Z.eqb_spec (w64 (T + Z.of_nat (length D) + 1)) (w64 (T + n))) as [F|F].
      - apply w64_inj in F; [|lia]. destruct (Z.eqb_spec (Z.of_nat (length D) + 1) n); [reflexivity|lia].
      - destruct (Z.eqb_spec (Z.of_nat (length D) + 1) n) as [K|K]; [exfalso; apply F; f_equal; lia|reflexivity]. }
    assert (C2 : circ p (put_queue (2 ^ p - 1) sl (w64 (T + Z.of_nat (length D))) q') h (A ++ (D ++ [q']) ++ rest)).
    { rewrite HT. rewrite <- (app_nil_r (D ++ q :: rest)) in C.
      pose proof (circ_put p sl h A (D ++ q :: rest) [] (length D) q' Hp C ltac:(rewrite app_length; cbn [length]; lia)) as K.
      rewrite app_nil_r in K. rewrite <- (Nat.add_0_r (length D)) in K at 2. rewrite upd_app2 in K. cbn [upd] in K. rewrite <- app_assoc. exact K. }
    destruct (IH fuel _ (D ++ [q']) C2) as (sl' & R1 & R2).
    + rewrite app_length. cbn [length]. lia.
    + lia.
    + rewrite app_length in R1, R2. cbn [length] in R1, R2. exists sl'. replace (T + Z.of_nat (length D) + 1) with (T + Z.of_nat (length D + 1)) by lia.
      split; [exact R1|]. cbn [relinked]. rewrite <- EQ. replace (Z.of_nat (length D) + 1) with (Z.of_nat (length D + 1)) by lia. now rewrite <- app_assoc in R2.
Qed.

Definition with_handler (l : list qitem) (id : Z) : list qitem := match l with [] => [] | q :: r => set_handler q id :: r end.
Lemma new_items_nth mode hs : forall T i q, nth_error (new_items mode T hs) i = Some q -> exists hp, nth_error hs i = Some hp /\ q = new_item mode hp (w64 (T + Z.of_nat i)).
Proof.
  induction hs as [|x hs IH]; intros T [|i] q H; cbn [new_items nth_error] in *; try discriminate.
  - injection H as <-. exists x. now rewrite Z.add_0_r.
  - apply IH in H as (hp & H & ->). exists hp. split; [exact H|]. do 2 f_equal. lia.
Qed.
Definition new_group (mode : gmode) (id T : Z) (hs : list heap_ref) : ag :=
  {| ag_id := id; ag_mode := mode; ag_items := relinked mode T (Z.of_nat (length hs)) 0 (with_handler (new_items mode T hs) id); ag_act := O; ag_out := O |}.
Lemma with_handler_length l id : length (with_handler l id) = length l.
Proof. destruct l; reflexivity. Qed.
Lemma new_group_length mode id T hs : length (ag_items (new_group mode id T hs)) = length hs.
Proof. cbn [new_group ag_items]. now rewrite relinked_length, with_handler_length, new_items_length. Qed.
Lemma new_group_nth mode id T hs i q : nth_error (ag_items (new_group mode id T hs)) i = Some q -> exists hp, nth_error hs i = Some hp /\
  q_pkts q = h_pkts hp /\ q_sub q = h_sub hp /\ q_mode q = mode /\ q_end q = w64 (T + Z.of_nat (length hs)) /\ q_next q = link_at mode T (Z.of_nat (length hs)) (Z.of_nat i)
  /\ q_waiters q = [] /\ q_bytes q = 0 /\ q_result q = 0 /\ (i = O -> q_handler q = Some id).
Proof.
  cbn [new_group ag_items]. intro H. apply relinked_nth in H as (q0 & H & ->).
  assert (K : exists q1, nth_error (new_items mode T hs) i = Some q1 /\ (q0 = q1 \/ q0 = set_handler q1 id) /\ (i = O -> q0 = set_handler q1 id)).
  { destruct (new_items mode T hs) as [|x r]; [destruct i; discriminate|]. destruct i as [|i]; cbn [with_handler nth_error] in *.
    - injection H as <-. exists x. auto.
    - exists q0. split; [exact H|]. split; [auto|lia]. }
  destruct K as (q1 & K1 & K2 & K3). apply new_items_nth in K1 as (hp & Hh & ->). exists hp. split; [exact Hh|].
  assert (HH : i = O -> q_handler q0 = Some id) by (intro Z0; rewrite (K3 Z0); reflexivity).
  destruct K2 as [->| ->]; cbn [set_links set_handler new_item q_pkts q_sub q_mode q_end q_next q_waiters q_bytes q_result q_handler] in *; repeat split; auto.
Qed.

Lemma heap_ok_pkts hp : heap_ok hp = true -> exists x r, h_pkts hp = x :: r.
Proof. unfold heap_ok. destruct (h_pkts hp) as [|x r]; cbn [andb]; [discriminate|eauto]. Qed.
Lemma new_group_ok mode id T hs : hs <> [] -> forallb heap_ok hs = true -> ag_ok T (new_group mode id T hs) /\ fresh (new_group mode id T hs).
Proof.
  intros HN HO. set (g := new_group mode id T hs). assert (LG : length (ag_items g) = length hs) by apply new_group_length. split.
  - constructor.
    + intro E. rewrite E in LG. destruct hs; [congruence|discriminate].
    + rewrite LG. apply Forall_forall. intros q Hq. apply In_nth_error in Hq as [i Hq]. apply new_group_nth in Hq as (hp & _ & _ & _ & E1 & E2 & _). auto.
    + destruct (ag_items g) as [|q r] eqn:E; [destruct hs; [congruence|discriminate]|]. exists q, r. split; [reflexivity|].
      assert (N : nth_error (ag_items g) 0 = Some q) by now rewrite E. apply new_group_nth in N as (hp & N). apply N. reflexivity.
    + intros E i q Hq. rewrite LG. assert (Hi : (i < length hs)%nat) by (rewrite <- LG; apply nth_error_Some; congruence).
      apply new_group_nth in Hq as (hp & _ & _ & _ & _ & _ & En & _). exists 1%nat. split; [lia|]. split; [|intros e He; lia].
      rewrite En. unfold link_at. change (ag_mode g) with mode in E. rewrite E. destruct (Z.eqb_spec (Z.of_nat i + 1) (Z.of_nat (length hs))) as [K|K].
      * replace (i + 1)%nat with (length hs) by lia. rewrite Nat.mod_same by lia. f_equal. lia.
      * rewrite Nat.mod_small by lia. f_equal. lia.
  - split; [|split; reflexivity]. split; [|intros _ i Hi; cbn [g new_group ag_act] in Hi; lia].
    cbn [g new_group ag_act]. fold g. destruct (nth_error (ag_items g) 0) as [q|] eqn:N.
    + pose proof N as N'. apply new_group_nth in N' as (hp & Hh & E & _). rewrite forallb_forall in HO. destruct (heap_ok_pkts hp (HO hp (nth_error_In _ _ Hh))) as (x & r & X).
      exists q, x, r. split; [exact N|congruence].
    + apply nth_error_None in N. destruct hs; [congruence|cbn [length] in LG; lia].
Qed.
Lemma new_group_left mode id T hs : ag_left (new_group mode id T hs) = group_order mode (map heap_packets hs).
Proof.
  unfold ag_left, left_of. assert (E : lists (ag_items (new_group mode id T hs)) = map heap_packets hs).
  { unfold lists. cbn [new_group ag_items]. rewrite relinked_map by reflexivity.
    assert (K : map ipk (with_handler (new_items mode T hs) id) = map ipk (new_items mode T hs)) by (destruct (new_items mode T hs); reflexivity). rewrite K.
    clear K. revert T. induction hs as [|hp hs IH]; intro T; cbn [new_items map]; [reflexivity|]. now rewrite IH. }
  rewrite E. cbn [new_group ag_mode ag_act]. destruct mode; [apply rr_rest_0|reflexivity].
Qed.
Lemma new_group_wait mode id T hs : gwait (new_group mode id T hs) = [].
Proof.
  unfold gwait. assert (H : Forall (fun q => q_waiters q = []) (ag_items (new_group mode id T hs))).
  { apply Forall_forall. intros q Hq. apply In_nth_error in Hq as [i Hq]. apply new_group_nth in Hq as (hp & Hq). apply Hq. }
  induction H as [|q l E _ IH]; cbn [flat_map]; [reflexivity|]. now rewrite E, IH.
Qed.
Lemma new_group_bytes mode id T hs : gbytes (ag_items (new_group mode id T hs)) = 0 /\ gerr (ag_items (new_group mode id T hs)) = 0.
Proof.
  destruct (ag_items (new_group mode id T hs)) as [|q r] eqn:E; [split; reflexivity|]. assert (N : nth_error (ag_items (new_group mode id T hs)) 0 = Some q) by now rewrite E.
  apply new_group_nth in N as (hp & N). cbn [gbytes gerr]. split; apply N.
Qed.

Lemma commit_good s m t rq orig tail hd ncnt added : sinv s m ->
  nth_error (s_threads s) t = Some (UAdd rq [] orig tail hd ncnt added) ->
  good s m (user_commit s t rq orig tail ncnt added).
Proof.
  intros (p & h & gF & gI & gM & gN & pend & [Q L T Mi K]) Ht. pose proof (li_add _ _ _ _ _ _ _ _ _ L t _ Ht eq_refl) as LK.
  pose proof (li_lock _ _ _ _ _ _ _ _ _ L) as LL. rewrite LK in LL. destruct LL as (rq' & todo' & orig' & tail' & hd' & ncnt' & added' & Ht' & AD).
  rewrite Ht in Ht'. injection Ht' as <- <- <- <- <- <- <-.
  assert (Lt : (t < length (s_threads s))%nat) by (apply nth_error_Some; congruence).
  pose proof Q as [Qp Qm Qs Qc Qcap Qh Qt Qok QF QI QM QN Qst Qa Qw Qf Qfi Qe].
  destruct AD as [A1 A2 A3 A4 A5 A6 A7 A8 A9]. rewrite app_nil_r in A5.
  set (gs := gF ++ gI ++ gM ++ gN) in *. set (TT := h + glen gs) in *. set (hs := map fst added) in *.
  assert (LP : length pend = length hs) by (rewrite A4, new_items_length; reflexivity).
  assert (HSN : hs <> []) by congruence. pose proof (pow_63 p Qp) as HP.
  set (g := new_group (rq_mode rq) (rq_id rq) TT hs).
  destruct (new_group_ok (rq_mode rq) (rq_id rq) TT hs HSN ltac:(congruence)) as [GO GF]. fold g in GO, GF.
  assert (LN : Z.of_nat (length pend) <= 2 ^ p) by (apply circ_len in Qc; rewrite app_length in Qc; lia).
  unfold user_commit. destruct pend as [|q0 pr] eqn:EP; [destruct hs; [congruence|discriminate]|]. rewrite <- EP in *.
  assert (G0 : get_queue (s_mask s) (s_slots s) orig = Some q0).
  { rewrite Qm, A1. unfold TT, glen. rewrite <- (Z.add_0_r (h + _)). rewrite <- (app_nil_r pend) in Qc. apply (circ_at p _ h (its gs) pend [] O q0 Qp Qc). now rewrite EP. }
  rewrite G0. set (sl1 := put_queue (s_mask s) (s_slots s) orig (set_handler q0 (rq_id rq))).
  assert (C1 : circ p sl1 h (its gs ++ with_handler pend (rq_id rq))).
  { unfold sl1. rewrite Qm, A1. unfold TT, glen. rewrite <- (Z.add_0_r (h + _)). rewrite <- (app_nil_r pend) in Qc.
    pose proof (circ_put p _ h (its gs) pend [] O (set_handler q0 (rq_id rq)) Qp Qc ltac:(rewrite EP; cbn [length]; lia)) as C. rewrite app_nil_r in C.
    rewrite EP in C |- *. exact C. }
  assert (RL : exists sl2, (if tail =? w64 (orig + 1) then Some sl1 else relink (length (rq_heaps rq)) (s_mask s) sl1 (rq_mode rq) orig orig tail) = Some sl2
                /\ circ p sl2 h (its (gs ++ [g]))).
  { rewrite its_app. cbn [its flat_map]. rewrite app_nil_r. cbn [g new_group ag_items]. rewrite <- A4.
    destruct (Z.eqb_spec tail (w64 (orig + 1))) as [E|E].
    - exists sl1. split; [reflexivity|].
      assert (ONE : length pend = 1%nat).
      { rewrite A1, A2, w64_add in E. apply w64_inj in E; [lia|]. lia. }
      assert (pr = []) by (rewrite EP in ONE; destruct pr; [reflexivity|discriminate]). subst pr. rewrite EP in C1 |- *. cbn [with_handler relinked] in C1 |- *.
      assert (EQ : set_links (set_handler q0 (rq_id rq)) (w64 (TT + Z.of_nat (length hs))) (link_at (rq_mode rq) TT (Z.of_nat (length hs)) 0) = set_handler q0 (rq_id rq)).
      { rewrite <- LP, ONE. unfold link_at. change (0 + 1 =? Z.of_nat 1) with true. cbv iota. rewrite Z.add_0_r.
        assert (N0 : nth_error (new_items (rq_mode rq) TT hs) 0 = Some q0) by (rewrite <- A4, EP; reflexivity).
        apply new_items_nth in N0 as (hp & _ & ->). unfold new_item, set_links, set_handler. cbn [q_pkts q_sub q_end q_next q_mode q_bytes q_result q_handler q_waiters].
        rewrite w64_add. replace (TT + Z.of_nat 0 + 1) with (TT + Z.of_nat 1) by lia. replace (TT + Z.of_nat 0) with TT by lia. destruct (rq_mode rq); reflexivity. }
      rewrite EQ. exact C1.
    - destruct (relink_spec p h (rq_mode rq) (its gs) TT (Z.of_nat (length hs)) Qp eq_refl ltac:(lia) (with_handler pend (rq_id rq)) (length (rq_heaps rq)) sl1 []) as (sl2 & R1 & R2).
      + exact C1.
      + cbn [length]. rewrite with_handler_length. lia.
      + rewrite with_handler_length, A5, LP. lia.
      + exists sl2. cbn [length] in R1. rewrite Z.add_0_r in R1. rewrite Qm, A1, A2, LP. split; [exact R1|exact R2]. }
  destruct RL as (sl2 & RL & C2). rewrite RL. cbn [good]. intros _.
  assert (LG : length (ag_items g) = length hs) by apply new_group_length.
  assert (GL : glen (gs ++ [g]) = glen gs + Z.of_nat (length pend)) by (rewrite glen_app, glen_cons, glen_nil, LG; lia).
  destruct A3 as (h0 & A31 & A32 & A33).
  destruct Mi as [M1 M2 M3 M4 M5]. destruct added as [|a0 ar] eqn:EA; [exfalso; apply HSN; reflexivity|]. rewrite <- EA in *.
  assert (STEP : smon_step (s_nsub s) m (EAccept (rq_id rq) (rq_mode rq) added) =
    Some {| sm_groups := sm_groups m ++ [{| mg_id := rq_id rq; mg_left := group_order (rq_mode rq) (map (fun x => heap_packets (fst x)) added);
                                            mg_out := 0; mg_bytes := 0; mg_err := 0 |}];
            sm_rejected := sm_rejected m; sm_accepted := S (sm_accepted m); sm_done := sm_done m; sm_target := sm_target m;
            sm_next := ncnt; sm_step := sm_step m |}).
  { cbn [smon_step]. rewrite A9, M4, M5. rewrite EA in A8 |- *. rewrite A8. reflexivity. }
  eexists. cbn [smon_run]. rewrite STEP. split; [reflexivity|]. split; [|split; reflexivity].
  assert (GS : gF ++ gI ++ gM ++ gN ++ [g] = gs ++ [g]) by (unfold gs; now rewrite !app_assoc).
  exists p, h, gF, gI, gM, (gN ++ [g]), [].
  constructor; cbn [set_thread set_lock set_need set_tail set_seq set_slots s_size s_mask s_slots s_tail s_head s_w s_nsub s_next s_step s_lock s_threads s_io s_need s_posted]; rewrite ?GS.
  - constructor; auto; rewrite ?GS; auto.
    + now rewrite app_nil_r.
    + rewrite GL. unfold TT in A33. lia.
    + rewrite A2, GL. f_equal. unfold TT. lia.
    + apply groups_ok_app. split; [exact Qok|]. cbn [groups_ok]. split; [exact GO|exact Logic.I].
    + apply Forall_app. split; [exact QN|]. constructor; [exact GF|constructor].
  - destruct L as [L1 L2 L3]. constructor; auto.
    + intros t' q Hq A. rewrite nth_upd in Hq. destruct (Nat.eqb_spec t' t) as [E|E].
      * destruct (t <? length (s_threads s))%nat; [|discriminate]. injection Hq as Hq. rewrite <- Hq in A. destruct (s_need s); discriminate A.
      * specialize (L1 t' q Hq A). rewrite LK in L1. congruence.
    + intros t' q Hq. rewrite nth_upd in Hq. destruct (Nat.eqb_spec t' t) as [E|E]; [|now apply (L3 t')].
      destruct (t <? length (s_threads s))%nat; [|discriminate]. injection Hq as <-. destruct (s_need s); exact Logic.I.
  - assert (T' : tinv gs (length (pc_hs (w_pc (s_w s)))) (pc_ws (w_pc (s_w s))) (upd (s_threads s) t (if s_need s then UWake else UIdle)) m)
      by (eapply tinv_thread; eauto; destruct (s_need s); reflexivity). destruct T' as [T1 T2 T3 T4]. constructor; auto; cbn [sm_target sm_done].
    + intro t'. rewrite waits_app. cbn [waits flat_map]. unfold g. rewrite new_group_wait. cbn [app]. rewrite app_nil_r. apply T1.
    + intros j g' t' Hj Hin. assert (j < length (gs ++ [g]))%nat by (apply nth_error_Some; congruence). rewrite app_length in *. cbn [length] in *.
      destruct (Nat.eq_dec j (length gs)) as [->|N].
      * rewrite nth_error_app2, Nat.sub_diag in Hj by lia. injection Hj as <-. unfold g in Hin. rewrite new_group_wait in Hin. destruct Hin.
      * rewrite nth_error_app1 in Hj by lia. eapply T2; eauto.
  - constructor; cbn [sm_groups sm_accepted sm_done sm_rejected sm_next sm_step]; auto.
    + rewrite M1, !map_app, <- app_assoc. cbn [map]. do 3 f_equal. unfold mg_of. cbn [g].
      unfold g. destruct (new_group_bytes (rq_mode rq) (rq_id rq) TT hs) as [B1 B2]. rewrite B1, B2. rewrite new_group_left. unfold hs. rewrite EA. cbn [map]. rewrite map_map. reflexivity.
    + rewrite app_length. cbn [length]. lia.
    + intro x. rewrite M3. pose proof (sumw_upd (rejw x) (s_threads s) t _ (if s_need s then UWake else UIdle) Ht) as U. cbn [rejw] in U.
      assert (rejw x (if s_need s then UWake else UIdle) = O) by (destruct (s_need s); reflexivity). lia.
  - destruct K as [K1 K2]. constructor; [|discriminate]. pose proof (sumw_upd wakew (s_threads s) t _ (if s_need s then UWake else UIdle) Ht) as U. cbn [wakew] in U.
    destruct (s_need s); cbn [wakew] in U |- *; lia.
Qed.
