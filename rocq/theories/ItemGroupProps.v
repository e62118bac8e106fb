(** C44: item groups. *)
From Coq Require Import FinFun ZArith List Bool Lia.
From Verif Require Import ItemGroupModel ItemGroupSpec.
Import ListNotations.
Open Scope Z_scope.

(** *** Dictionaries *)
Section Dict.
  Context {A : Type}.
  Implicit Types d : list (Z * A).
  Lemma lookup_assign k j o d : lookup j (assign k o d) = if j =? k then Some o else lookup j d.
  Proof.
    induction d as [|[k' o'] d IH]; cbn; [reflexivity|]. destruct (Z.eqb_spec k k') as [->|N]; cbn.
    - destruct (j =? k'); reflexivity.
    - rewrite IH. destruct (Z.eqb_spec j k'), (Z.eqb_spec j k); congruence.
  Qed.
  Lemma keys_assign k o d : map fst (assign k o d) = map fst d \/ lookup k d = None /\ map fst (assign k o d) = map fst d ++ [k].
  Proof.
    induction d as [|[k' o'] d IH]; cbn; [now right|]. destruct (Z.eqb_spec k k') as [->|N]; cbn; [now left|]. destruct IH as [->|[E ->]]; [now left|right; split; [exact E|reflexivity]].
  Qed.
  Lemma lookup_in k d : lookup k d = None <-> ~ In k (map fst d).
  Proof.
    induction d as [|[k' o'] d IH]; cbn; [tauto|]. destruct (Z.eqb_spec k k') as [->|N]; [split; [discriminate|intuition]|]. rewrite IH. split; intro H; [intros [E|I]; [congruence|tauto]|tauto].
  Qed.
  Lemma nodup_assign k o d : NoDup (map fst d) -> NoDup (map fst (assign k o d)).
  Proof.
    intro H. destruct (keys_assign k o d) as [->|[E ->]]; [exact H|]. apply lookup_in in E. revert H E. generalize (map fst d) as l. clear. induction l as [|y l IH]; cbn; intros H E; [repeat constructor; auto|]. inversion_clear H as [|? ? H1 H2]. constructor.
    - rewrite in_app_iff. cbn. intuition.
    - apply IH; intuition.
  Qed.
  Lemma del_spec k d : NoDup (map fst d) -> match del k d with
    | Some d' => lookup k d <> None /\ NoDup (map fst d') /\ (forall j, lookup j d' = if j =? k then None else lookup j d)
    | None => lookup k d = None end.
  Proof.
    induction d as [|[k' o'] d IH]; cbn; intro N; [reflexivity|]. inversion_clear N as [|? ? N1 N2]. destruct (Z.eqb_spec k k') as [->|Ne].
    - split; [discriminate|]. split; [exact N2|]. intro j. destruct (Z.eqb_spec j k') as [->|]; [now apply lookup_in|reflexivity].
    - specialize (IH N2). destruct (del k d) as [d'|]; [|exact IH]. destruct IH as (I1 & I2 & I3). split; [exact I1|]. split; cbn.
      + constructor; [|exact I2]. apply lookup_in. rewrite I3. apply lookup_in in N1. destruct (k' =? k); auto.
      + intro j. rewrite I3. destruct (Z.eqb_spec j k') as [->|]; [destruct (Z.eqb_spec k' k); congruence|reflexivity].
  Qed.
End Dict.

Lemma set_nth_len {A} n (x : A) l : length (set_nth n x l) = length l. Proof. revert n. induction l; intros [|n]; cbn; auto. Qed.
Lemma nth_set_nth {A} n (x : A) l m : nth_error (set_nth n x l) m = if Nat.eqb m n then match nth_error l n with Some _ => Some x | None => None end else nth_error l m.
Proof. revert n m. induction l as [|y l IH]; intros [|n] [|m]; cbn; try reflexivity; [now destruct (Nat.eqb m n)|apply IH]. Qed.
Lemma obj_put g o x p : obj (put g o x) p = if Nat.eqb p o then match obj g o with Some _ => Some x | None => None end else obj g p.
Proof. apply nth_set_nth. Qed.

(** Changing an object in its value or version only keeps consistency. *)
Lemma put_consistent g o x y : consistent g -> obj g o = Some x -> it_id y = it_id x -> it_name y = it_name x -> consistent (put g o y).
Proof.
  intros [C1 C2 C3 C4] E I N. constructor; cbn [put g_id g_name]; auto.
  - intros k p L. destruct (C1 k p L) as (z & Z1 & Z2 & Z3). rewrite obj_put. destruct (Nat.eqb_spec p o) as [->|]; [|eauto]. rewrite E in *. injection Z1 as <-. exists y. rewrite I, N. auto.
  - intros k p L. destruct (C2 k p L) as (z & Z1 & Z2 & Z3). rewrite obj_put. destruct (Nat.eqb_spec p o) as [->|]; [|eauto]. rewrite E in *. injection Z1 as <-. exists y. rewrite I, N. auto.
Qed.
Lemma set_value_consistent g o v : consistent g -> consistent (set_value g o v).
Proof. intro C. unfold set_value. destruct (obj g o) as [x|] eqn:E; [|exact C]. now apply (put_consistent g o x). Qed.
Lemma update_item_consistent g id v : consistent g -> consistent (update_item g id v).
Proof. intro C. unfold update_item. destruct (id <=? stream_ctrl_id); [exact C|]. destruct (lookup id (g_id g)) as [o|]; [|exact C]. destruct (obj g o) as [x|] eqn:E; [|exact C]. now apply (put_consistent g o x). Qed.

Lemma remove_consistent g k o x : consistent g -> lookup k (g_id g) = Some o -> obj g o = Some x ->
  exists g', remove_item g x = Some g' /\ consistent g' /\ g_objs g' = g_objs g /\ (forall j, lookup j (g_id g') = if j =? it_id x then None else lookup j (g_id g)) /\ (forall j, lookup j (g_name g') = if j =? it_name x then None else lookup j (g_name g)).
Proof.
  intros [C1 C2 C3 C4] L E. destruct (C1 k o L) as (y & Y1 & Y2 & Y3). rewrite E in Y1. injection Y1 as <-. subst k. unfold remove_item. pose proof (del_spec (it_id x) (g_id g) C3) as D1. destruct (del (it_id x) (g_id g)) as [i|]; [|congruence]. pose proof (del_spec (it_name x) (g_name g) C4) as D2. destruct (del (it_name x) (g_name g)) as [n|]; [|congruence].
  destruct D1 as (_ & N1 & P1). destruct D2 as (_ & N2 & P2). eexists. split; [reflexivity|]. split; [|split; [reflexivity|split; assumption]]. constructor; cbn [g_id g_name g_objs]; auto; unfold obj; cbn [g_objs]; fold (obj g).
  - intros j p H. rewrite P1 in H. destruct (Z.eqb_spec j (it_id x)); [discriminate|]. destruct (C1 j p H) as (z & Z1 & Z2 & Z3). exists z. split; [exact Z1|]. split; [exact Z2|]. rewrite P2. destruct (Z.eqb_spec (it_name z) (it_name x)) as [En|]; [|exact Z3]. exfalso. rewrite En, Y3 in Z3. injection Z3 as <-. rewrite E in Z1. injection Z1 as <-. congruence.
  - intros j p H. rewrite P2 in H. destruct (Z.eqb_spec j (it_name x)); [discriminate|]. destruct (C2 j p H) as (z & Z1 & Z2 & Z3). exists z. split; [exact Z1|]. split; [exact Z2|]. rewrite P1. destruct (Z.eqb_spec (it_id z) (it_id x)) as [En|]; [|exact Z3]. exfalso. rewrite En, L in Z3. injection Z3 as <-. rewrite E in Z1. injection Z1 as <-. congruence.
Qed.

(** *** The effect of _add_item *)
Definition same_descr (x y : item) : Prop := it_id x = it_id y /\ it_name x = it_name y /\ it_desc x = it_desc y.
Definition push (g : group) (x : item) : group := {| g_objs := g_objs g ++ [x]; g_id := g_id g; g_name := g_name g |}.
Lemma obj_push g x o : obj (push g x) o = if Nat.eqb o (length (g_objs g)) then Some x else obj g o.
Proof.
  unfold obj, push. cbn [g_objs]. destruct (Nat.eqb_spec o (length (g_objs g))) as [->|N]; [rewrite nth_error_app2, Nat.sub_diag by lia; reflexivity|]. destruct (Nat.lt_ge_cases o (length (g_objs g))); [now rewrite nth_error_app1 by assumption|].
  transitivity (@None item); [|symmetry]; apply nth_error_None; rewrite ?app_length; cbn; lia.
Qed.
Lemma push_consistent g x : consistent g -> consistent (push g x).
Proof.
  intros [C1 C2 C3 C4]. assert (N : forall o z, obj g o = Some z -> obj (push g x) o = Some z). { intros o z H. rewrite obj_push. destruct (Nat.eqb_spec o (length (g_objs g))) as [->|]; [|exact H]. unfold obj in H. assert (nth_error (g_objs g) (length (g_objs g)) = None) by (apply nth_error_None; lia). congruence. }
  constructor; cbn [push g_id g_name]; auto.
  - intros k o L. destruct (C1 k o L) as (z & ? & ? & ?). exists z. auto.
  - intros k o L. destruct (C2 k o L) as (z & ? & ? & ?). exists z. auto.
Qed.

(** Either the same descriptor is there and at most its value changes, or the new
    item replaces those with its id or its name. *)
Lemma add_spec g x : consistent g -> exists g', add_item_obj g x = Some g' /\ consistent g' /\
  ((exists o y, lookup (it_id x) (g_id g) = Some o /\ obj g o = Some y /\ same_descr x y /\ g' = match it_value x with Some v => put (push g x) o (with_value y v) | None => push g x end) \/
   ((forall y, by_id g (it_id x) = Some y -> ~ same_descr x y) /\
    (forall j, lookup j (g_id g') = if j =? it_id x then Some (length (g_objs g)) else match by_id g j with Some y => if it_name y =? it_name x then None else lookup j (g_id g) | None => None end) /\
    (forall j, lookup j (g_name g') = if j =? it_name x then Some (length (g_objs g)) else match by_name g j with Some y => if it_id y =? it_id x then None else lookup j (g_name g) | None => None end) /\
    exists n, it_version x <= n /\ (forall y, by_id g (it_id x) = Some y -> it_version y < n) /\ (forall y, by_name g (it_name x) = Some y -> it_version y < n) /\
      g_objs g' = g_objs g ++ [with_version x n])).
Proof.
  intro C. unfold add_item_obj. fold (push g x). set (o := length (g_objs g)). pose proof (push_consistent g x C) as Cp. assert (Eo : obj (push g x) o = Some x) by (rewrite obj_push; unfold o; now rewrite Nat.eqb_refl).
  assert (Old : forall p z, obj g p = Some z -> p <> o /\ obj (push g x) p = Some z). { intros p z H. assert (p <> o). { unfold o. intros ->. unfold obj in H. assert (nth_error (g_objs g) (length (g_objs g)) = None) by (apply nth_error_None; lia). congruence. } split; [assumption|]. rewrite obj_push. destruct (Nat.eqb_spec p (length (g_objs g))); [contradiction|exact H]. }
  unfold add_obj. rewrite Eo. cbn [push g_id g_name]. fold (push g x). destruct C as [C1 C2 C3 C4] eqn:EC.
  assert (Li : match lookup (it_id x) (g_id g) with Some p => exists y, obj g p = Some y /\ p <> o /\ obj (push g x) p = Some y /\ it_id y = it_id x /\ lookup (it_name y) (g_name g) = Some p /\ by_id g (it_id x) = Some y | None => by_id g (it_id x) = None end).
  { unfold by_id. destruct (lookup (it_id x) (g_id g)) as [p|] eqn:L; [|reflexivity]. destruct (C1 _ _ L) as (y & Y1 & Y2 & Y3). destruct (Old p y Y1). exists y. auto 7. }
  assert (Ln : match lookup (it_name x) (g_name g) with Some p => exists y, obj g p = Some y /\ p <> o /\ obj (push g x) p = Some y /\ it_name y = it_name x /\ lookup (it_id y) (g_id g) = Some p /\ by_name g (it_name x) = Some y | None => by_name g (it_name x) = None end).
  { unfold by_name. destruct (lookup (it_name x) (g_name g)) as [p|] eqn:L; [|reflexivity]. destruct (C2 _ _ L) as (y & Y1 & Y2 & Y3). destruct (Old p y Y1). exists y. auto 7. }
  assert (Final : forall gr n, consistent gr -> g_objs gr = g_objs g ++ [with_version x n] ->
     lookup (it_id x) (g_id gr) = None -> lookup (it_name x) (g_name gr) = None ->
     consistent {| g_objs := g_objs gr; g_id := assign (it_id x) o (g_id gr); g_name := assign (it_name x) o (g_name gr) |}).
  { intros gr n [R1 R2 R3 R4] Ob Ni Nn. assert (Eg : obj gr o = Some (with_version x n)) by (unfold obj, o; rewrite Ob, nth_error_app2, Nat.sub_diag by lia; reflexivity). constructor; cbn [g_id g_name]; try (apply nodup_assign; assumption); intros k p; rewrite lookup_assign; unfold obj; cbn [g_objs]; fold (obj gr p).
    - destruct (Z.eqb_spec k (it_id x)) as [->|Nk]; intro L; [injection L as <-; exists (with_version x n); split; [exact Eg|]; split; [reflexivity|]; cbn [with_version it_name]; now rewrite lookup_assign, Z.eqb_refl|].
      destruct (R1 k p L) as (z & Z1 & Z2 & Z3). exists z. split; [exact Z1|]. split; [exact Z2|]. rewrite lookup_assign. destruct (Z.eqb_spec (it_name z) (it_name x)) as [E|]; [rewrite E in Z3; congruence|exact Z3].
    - destruct (Z.eqb_spec k (it_name x)) as [->|Nk]; intro L; [injection L as <-; exists (with_version x n); split; [exact Eg|]; split; [reflexivity|]; cbn [with_version it_id]; now rewrite lookup_assign, Z.eqb_refl|].
      destruct (R2 k p L) as (z & Z1 & Z2 & Z3). exists z. split; [exact Z1|]. split; [exact Z2|]. rewrite lookup_assign. destruct (Z.eqb_spec (it_id z) (it_id x)) as [E|]; [rewrite E in Z3; congruence|exact Z3]. }
  assert (Put : forall n, g_objs (put (push g x) o (with_version x n)) = g_objs g ++ [with_version x n]).
  { intro n. unfold o. cbn [put push g_objs]. clear. induction (g_objs g); cbn; congruence. }
  assert (ObPut : forall n p z, p <> o -> obj (push g x) p = Some z -> obj (put (push g x) o (with_version x n)) p = Some z) by (intros n p z Np H; rewrite obj_put; destruct (Nat.eqb_spec p o); [contradiction|exact H]).
  assert (CPut : forall n, consistent (put (push g x) o (with_version x n))) by (intro n; now apply (put_consistent _ o x)).
  (* what becomes of other keys *)
  assert (OthI : forall j, j <> it_id x -> forall p, lookup (it_name x) (g_name g) = Some p -> (exists y, obj g p = Some y /\ j <> it_id y) \/ (exists y, obj g p = Some y /\ j = it_id y)) by (intros j _ p L; rewrite L in Ln; destruct Ln as (y & Y & _); destruct (Z.eq_dec j (it_id y)); eauto).
  clear OthI.
  assert (KI : forall j, match by_id g j with Some y => lookup j (g_id g) <> None /\ it_id y = j | None => lookup j (g_id g) = None end) by (intro j; unfold by_id; destruct (lookup j (g_id g)) as [p|] eqn:L; [|reflexivity]; destruct (C1 _ _ L) as (y & Y1 & Y2 & _); rewrite Y1; split; [discriminate|exact Y2]).
  assert (KN : forall j, match by_name g j with Some y => lookup j (g_name g) <> None /\ it_name y = j | None => lookup j (g_name g) = None end) by (intro j; unfold by_name; destruct (lookup j (g_name g)) as [p|] eqn:L; [|reflexivity]; destruct (C2 _ _ L) as (y & Y1 & Y2 & _); rewrite Y1; split; [discriminate|exact Y2]).
  (* an item of the group with the name of x is the one found by name, and so on *)
  assert (UN : forall j y, by_id g j = Some y -> it_name y = it_name x -> lookup (it_name x) (g_name g) = lookup j (g_id g)) by (intros j y B E; unfold by_id in B; destruct (lookup j (g_id g)) as [p|] eqn:L; [|discriminate]; destruct (C1 _ _ L) as (z & Z1 & Z2 & Z3); rewrite B in Z1; injection Z1 as <-; now rewrite <- E).
  assert (UI : forall j y, by_name g j = Some y -> it_id y = it_id x -> lookup (it_id x) (g_id g) = lookup j (g_name g)) by (intros j y B E; unfold by_name in B; destruct (lookup j (g_name g)) as [p|] eqn:L; [|discriminate]; destruct (C2 _ _ L) as (z & Z1 & Z2 & Z3); rewrite B in Z1; injection Z1 as <-; now rewrite <- E).
  destruct (lookup (it_id x) (g_id g)) as [p|] eqn:Lp; [destruct Li as (y & Y1 & Y2 & Y3 & Y4 & Y5 & Y6); rewrite Y3|].
  - destruct ((it_name y =? it_name x) && (it_desc y =? it_desc x)) eqn:Sm.
    + apply andb_true_iff in Sm as [Sm1 Sm2]. apply Z.eqb_eq in Sm1, Sm2. eexists. split; [reflexivity|]. split; [destruct (it_value x); [now apply set_value_consistent|exact Cp]|]. left. exists p, y. split; [reflexivity|]. split; [exact Y1|]. split; [repeat split; auto|]. destruct (it_value x); [|reflexivity]. unfold set_value. now rewrite Y3.
    + assert (Nd : forall z, by_id g (it_id x) = Some z -> ~ same_descr x z) by (intros z Z; rewrite Y6 in Z; injection Z as <-; intros (_ & S1 & S2); rewrite S1, S2, !Z.eqb_refl in Sm; discriminate).
      destruct (lookup (it_name x) (g_name g)) as [q|] eqn:Lq.
      * destruct Ln as (w & W1 & W2 & W3 & W4 & W5 & W6). rewrite W3. set (n := Z.max (Z.max (it_version x) (it_version y + 1)) (it_version w + 1)). destruct (remove_consistent (put (push g x) o (with_version x n)) (it_id x) p y (CPut n) Lp (ObPut n p y Y2 Y3)) as (g1 & -> & G1 & G2 & G3 & G4). cbn [put push g_id g_name] in G3, G4.
        destruct (Nat.eqb_spec q p) as [->|Nq].
        -- rewrite Y1 in W1. injection W1 as <-. eexists. split; [reflexivity|]. split; [apply (Final g1 n); auto; [rewrite G2; apply Put|rewrite G3, Y4, Z.eqb_refl; reflexivity|rewrite G4, W4, Z.eqb_refl; reflexivity]|]. right. split; [exact Nd|]. cbn [g_id g_name g_objs]. split; [|split].
           ++ intro j. rewrite lookup_assign, G3, Y4. destruct (Z.eqb_spec j (it_id x)); [reflexivity|]. pose proof (KI j) as K. destruct (by_id g j) as [z|] eqn:B; [|exact K]. destruct (Z.eqb_spec (it_name z) (it_name x)) as [E|]; [|reflexivity]. pose proof (UN j z B E) as U. destruct (C1 j p (eq_sym U)) as (z' & Z1 & Z2 & _). rewrite Y1 in Z1. injection Z1 as <-. congruence.
           ++ intro j. rewrite lookup_assign, G4, W4. destruct (Z.eqb_spec j (it_name x)); [reflexivity|]. pose proof (KN j) as K. destruct (by_name g j) as [z|] eqn:B; [|exact K]. destruct (Z.eqb_spec (it_id z) (it_id x)) as [E|]; [|reflexivity]. pose proof (UI j z B E) as U. destruct (C2 j p (eq_sym U)) as (z' & Z1 & Z2 & _). rewrite Y1 in Z1. injection Z1 as <-. congruence.
           ++ exists n. split; [unfold n; lia|]. split; [intros z Z; rewrite Y6 in Z; injection Z as <-; unfold n; lia|]. split; [intros z Z; rewrite W6 in Z; injection Z as <-; unfold n; lia|]. rewrite G2. apply Put.
        -- assert (Eq1 : obj g1 q = Some w) by (unfold obj; rewrite G2; apply (ObPut n q w W2 W3)). rewrite Eq1. assert (Niw : it_id w <> it_id x) by (intro E; rewrite E, Lp in W5; congruence). assert (Nny : it_name y <> it_name x) by (intro E; rewrite E, Lq in Y5; congruence).
           assert (Lw : lookup (it_id w) (g_id g1) = Some q) by (rewrite G3, Y4; destruct (Z.eqb_spec (it_id w) (it_id x)); [contradiction|exact W5]).
           destruct (remove_consistent g1 (it_id w) q w G1 Lw Eq1) as (g2 & -> & H1 & H2 & H3 & H4). eexists. split; [reflexivity|]. split; [apply (Final g2 n); auto; [rewrite H2, G2; apply Put|rewrite H3, G3, Y4, Z.eqb_refl; now destruct (it_id x =? it_id w)|rewrite H4, W4, Z.eqb_refl; reflexivity]|]. right. split; [exact Nd|]. cbn [g_id g_name g_objs]. split; [|split].
           ++ intro j. rewrite lookup_assign, H3, G3, Y4. destruct (Z.eqb_spec j (it_id x)); [reflexivity|]. pose proof (KI j) as K. destruct (by_id g j) as [z|] eqn:B; [|rewrite K; now destruct (j =? it_id w)]. destruct K as [K1 K2]. destruct (Z.eqb_spec (it_name z) (it_name x)) as [E|E].
              ** pose proof (UN j z B E) as U. destruct (C1 j q (eq_sym U)) as (z' & Z1 & Z2 & _). rewrite W1 in Z1. injection Z1 as <-. now rewrite Z2, Z.eqb_refl.
              ** destruct (Z.eqb_spec j (it_id w)) as [->|]; [|reflexivity]. exfalso. unfold by_id in B. rewrite W5, W1 in B. injection B as <-. congruence.
           ++ intro j. rewrite lookup_assign, H4, G4, W4. destruct (Z.eqb_spec j (it_name x)); [reflexivity|]. pose proof (KN j) as K. destruct (by_name g j) as [z|] eqn:B; [|rewrite K; now destruct (j =? it_name y)]. destruct K as [K1 K2]. destruct (Z.eqb_spec (it_id z) (it_id x)) as [E|E].
              ** pose proof (UI j z B E) as U. destruct (C2 j p (eq_sym U)) as (z' & Z1 & Z2 & _). rewrite Y1 in Z1. injection Z1 as <-. now rewrite Z2, Z.eqb_refl.
              ** destruct (Z.eqb_spec j (it_name y)) as [->|]; [|reflexivity]. exfalso. unfold by_name in B. rewrite Y5, Y1 in B. injection B as <-. congruence.
           ++ exists n. split; [unfold n; lia|]. split; [intros z Z; rewrite Y6 in Z; injection Z as <-; unfold n; lia|]. split; [intros z Z; rewrite W6 in Z; injection Z as <-; unfold n; lia|]. rewrite H2, G2. apply Put.
      * set (n := Z.max (it_version x) (it_version y + 1)). destruct (remove_consistent (put (push g x) o (with_version x n)) (it_id x) p y (CPut n) Lp (ObPut n p y Y2 Y3)) as (g1 & -> & G1 & G2 & G3 & G4). cbn [put push g_id g_name] in G3, G4. assert (Nny : it_name y <> it_name x) by (intro E; rewrite E, Lq in Y5; congruence).
        eexists. split; [reflexivity|]. split; [apply (Final g1 n); auto; [rewrite G2; apply Put|rewrite G3, Y4, Z.eqb_refl; reflexivity|rewrite G4, Lq; now destruct (it_name x =? it_name y)]|]. right. split; [exact Nd|]. cbn [g_id g_name g_objs]. split; [|split].
        -- intro j. rewrite lookup_assign, G3, Y4. destruct (Z.eqb_spec j (it_id x)); [reflexivity|]. pose proof (KI j) as K. destruct (by_id g j) as [z|] eqn:B; [|exact K]. destruct (Z.eqb_spec (it_name z) (it_name x)) as [E|]; [|reflexivity]. pose proof (UN j z B E) as U. destruct K. congruence.
        -- intro j. rewrite lookup_assign, G4. destruct (Z.eqb_spec j (it_name x)); [reflexivity|]. pose proof (KN j) as K. destruct (by_name g j) as [z|] eqn:B; [|rewrite K; now destruct (j =? it_name y)]. destruct K as [K1 K2]. destruct (Z.eqb_spec (it_id z) (it_id x)) as [E|E].
           ++ pose proof (UI j z B E) as U. destruct (C2 j p (eq_sym U)) as (z' & Z1 & Z2 & _). rewrite Y1 in Z1. injection Z1 as <-. now rewrite Z2, Z.eqb_refl.
           ++ destruct (Z.eqb_spec j (it_name y)) as [->|]; [|reflexivity]. exfalso. unfold by_name in B. rewrite Y5, Y1 in B. injection B as <-. congruence.
        -- exists n. split; [unfold n; lia|]. split; [intros z Z; rewrite Y6 in Z; injection Z as <-; unfold n; lia|]. split; [intros z Z; congruence|]. rewrite G2. apply Put.
  - assert (Nd : forall z, by_id g (it_id x) = Some z -> ~ same_descr x z) by (intros z Z; congruence). destruct (lookup (it_name x) (g_name g)) as [q|] eqn:Lq.
    + destruct Ln as (w & W1 & W2 & W3 & W4 & W5 & W6). rewrite W3. set (n := Z.max (it_version x) (it_version w + 1)). rewrite (ObPut n q w W2 W3). destruct (remove_consistent (put (push g x) o (with_version x n)) (it_id w) q w (CPut n) W5 (ObPut n q w W2 W3)) as (g2 & -> & H1 & H2 & H3 & H4). cbn [put push g_id g_name] in H3, H4. assert (Niw : it_id w <> it_id x) by (intro E; rewrite E, Lp in W5; congruence).
      eexists. split; [reflexivity|]. split; [apply (Final g2 n); auto; [rewrite H2; apply Put|rewrite H3, Lp; now destruct (it_id x =? it_id w)|rewrite H4, W4, Z.eqb_refl; reflexivity]|]. right. split; [exact Nd|]. cbn [g_id g_name g_objs]. split; [|split].
      * intro j. rewrite lookup_assign, H3. destruct (Z.eqb_spec j (it_id x)); [reflexivity|]. pose proof (KI j) as K. destruct (by_id g j) as [z|] eqn:B; [|rewrite K; now destruct (j =? it_id w)]. destruct K as [K1 K2]. destruct (Z.eqb_spec (it_name z) (it_name x)) as [E|E].
        -- pose proof (UN j z B E) as U. destruct (C1 j q (eq_sym U)) as (z' & Z1 & Z2 & _). rewrite W1 in Z1. injection Z1 as <-. now rewrite Z2, Z.eqb_refl.
        -- destruct (Z.eqb_spec j (it_id w)) as [->|]; [|reflexivity]. exfalso. unfold by_id in B. rewrite W5, W1 in B. injection B as <-. congruence.
      * intro j. rewrite lookup_assign, H4, W4. destruct (Z.eqb_spec j (it_name x)); [reflexivity|]. pose proof (KN j) as K. destruct (by_name g j) as [z|] eqn:B; [|exact K]. destruct (Z.eqb_spec (it_id z) (it_id x)) as [E|]; [|reflexivity]. pose proof (UI j z B E) as U. destruct K. congruence.
      * exists n. split; [unfold n; lia|]. split; [intros z Z; congruence|]. split; [intros z Z; rewrite W6 in Z; injection Z as <-; unfold n; lia|]. rewrite H2. apply Put.
    + set (n := it_version x). eexists. split; [reflexivity|]. split; [apply (Final (put (push g x) o (with_version x n)) n); auto|]. right. split; [exact Nd|]. cbn [put push g_id g_name g_objs]. split; [|split].
      * intro j. rewrite lookup_assign. destruct (Z.eqb_spec j (it_id x)); [reflexivity|]. pose proof (KI j) as K. destruct (by_id g j) as [z|] eqn:B; [|exact K]. destruct (Z.eqb_spec (it_name z) (it_name x)) as [E|]; [|reflexivity]. pose proof (UN j z B E) as U. destruct K. congruence.
      * intro j. rewrite lookup_assign. destruct (Z.eqb_spec j (it_name x)); [reflexivity|]. pose proof (KN j) as K. destruct (by_name g j) as [z|] eqn:B; [|exact K]. destruct (Z.eqb_spec (it_id z) (it_id x)) as [E|]; [|reflexivity]. pose proof (UI j z B E) as U. destruct K. congruence.
      * exists n. split; [unfold n; lia|]. split; [intros z Z; congruence|]. split; [intros z Z; congruence|]. apply Put.
Qed.

Lemma step_consistent g p : consistent g -> exists g', step g p = Some g' /\ consistent g'.
Proof.
  intro C. destruct p as [id name desc v|id name desc|id v|o v]; cbn [step].
  - unfold add_item. destruct (add_spec g (new_item match id with Some id => id | None => fresh_id (length (g_id g)) unreserved_id (g_id g) end name desc v) C) as (g' & E & C' & _). eauto.
  - destruct (add_spec g (new_item id name desc None) C) as (g' & E & C' & _). eauto.
  - eexists. split; [reflexivity|]. now apply update_item_consistent.
  - eexists. split; [reflexivity|]. now apply set_value_consistent.
Qed.
(** Whatever is added, received or assigned, looking up by id and by name give the
    same items, every id and name is there once, and nothing is ever raised. *)
Theorem C44_consistent g : reach g -> consistent g.
Proof. induction 1 as [|g p g' _ C S]; [constructor; cbn; try discriminate; constructor|]. destruct (step_consistent g p C) as (g1 & E & C'). congruence. Qed.
Theorem C44_total g p : reach g -> step g p <> None.
Proof. intro R. destruct (step_consistent g p (C44_consistent g R)) as (g' & E & _). congruence. Qed.

Lemma fresh_cases d fuel : forall id, id <= fresh_id fuel id d /\ (lookup (fresh_id fuel id d) d = None \/ forall i, 0 <= i <= Z.of_nat fuel -> lookup (id + i) d <> None).
Proof.
  induction fuel as [|f IH]; intro id; cbn [fresh_id].
  - split; [destruct (lookup id d); lia|]. destruct (lookup id d) eqn:L; [right|left; reflexivity]. intros i Hi. replace (id + i) with id by lia. congruence.
  - destruct (lookup id d) eqn:L; [|split; [lia|left; exact L]]. destruct (IH (id + 1)) as [H1 H2]. split; [lia|]. destruct H2 as [H2|H2]; [left; exact H2|right]. intros i Hi. destruct (Z.eq_dec i 0) as [->|]; [rewrite Z.add_0_r; congruence|]. replace (id + i) with (id + 1 + (i - 1)) by lia. apply H2. lia.
Qed.
(** An id that is chosen automatically is not in use. *)
Theorem C44_fresh_id g : let id := fresh_id (length (g_id g)) unreserved_id (g_id g) in unreserved_id <= id /\ by_id g id = None.
Proof.
  cbv zeta. destruct (fresh_cases (g_id g) (length (g_id g)) unreserved_id) as [H1 [H2|H2]]; split; auto; [unfold by_id; now rewrite H2|exfalso].
  set (l := map (fun i => unreserved_id + Z.of_nat i) (seq 0 (S (length (g_id g))))). assert (N : NoDup l) by (apply FinFun.Injective_map_NoDup; [intros a b; lia|apply seq_NoDup]).
  assert (I : incl l (map fst (g_id g))). { intros x Hx. unfold l in Hx. apply in_map_iff in Hx as (i & <- & Hi). apply in_seq in Hi. destruct (in_dec Z.eq_dec (unreserved_id + Z.of_nat i) (map fst (g_id g))) as [|Ni]; [assumption|]. apply lookup_in in Ni. exfalso. apply (H2 (Z.of_nat i)); [lia|exact Ni]. }
  pose proof (NoDup_incl_length N I) as L. unfold l in L. rewrite !map_length, seq_length in L. lia.
Qed.

Lemma obj_app g g' x k o : g_objs g' = g_objs g ++ [x] -> obj g o = Some k -> obj g' o = Some k.
Proof. unfold obj. intros -> H. rewrite nth_error_app1; [exact H|]. apply nth_error_Some. congruence. Qed.
Lemma obj_last g g' x : g_objs g' = g_objs g ++ [x] -> obj g' (length (g_objs g)) = Some x.
Proof. unfold obj. intros ->. rewrite nth_error_app2, Nat.sub_diag by lia. reflexivity. Qed.
(** The version by which [x'] is seen to differ from [x] *)
Definition newer (x x' : item) : Prop := it_version x <= it_version x' /\ (x' <> x -> it_version x < it_version x').
Lemma newer_refl x : newer x x. Proof. split; [lia|congruence]. Qed.
Lemma put_newer g o x y p z z' : obj g o = Some x -> newer x y -> obj g p = Some z -> obj (put g o y) p = Some z' -> newer z z'.
Proof. intros E N H H'. rewrite obj_put in H'. destruct (Nat.eqb_spec p o) as [->|]; [|rewrite H in H'; injection H' as <-; apply newer_refl]. rewrite E in *. injection H as <-. injection H' as <-. exact N. Qed.
Lemma add_newer g x g' : consistent g -> add_item_obj g x = Some g' -> (forall k y y', by_id g k = Some y -> by_id g' k = Some y' -> newer y y') /\ (forall k y y', by_name g k = Some y -> by_name g' k = Some y' -> newer y y').
Proof.
  intros C E. destruct (add_spec g x C) as (g1 & E1 & _ & H). rewrite E in E1. injection E1 as <-. destruct H as [(o & z & L & Eo & S & ->)|(_ & Hi & Hn & n & Vn & V1 & V2 & Ob)].
  - assert (P : forall p y y', obj g p = Some y -> obj (match it_value x with Some v => put (push g x) o (with_value z v) | None => push g x end) p = Some y' -> newer y y').
    { intros p y y' H1 H2. assert (Push : forall q w, obj g q = Some w -> obj (push g x) q = Some w) by (intros q w; now apply obj_app with (x := x)). destruct (it_value x) as [v|]; [|rewrite (Push _ _ H1) in H2; injection H2 as <-; apply newer_refl].
      apply (put_newer (push g x) o z (with_value z v) p); auto. unfold newer, with_value. cbn [it_version]. lia. }
    assert (Gi : g_id (match it_value x with Some v => put (push g x) o (with_value z v) | None => push g x end) = g_id g) by (destruct (it_value x); reflexivity). assert (Gn : g_name (match it_value x with Some v => put (push g x) o (with_value z v) | None => push g x end) = g_name g) by (destruct (it_value x); reflexivity).
    unfold by_id, by_name. rewrite Gi, Gn. split; intros k y y' H1 H2; [destruct (lookup k (g_id g)) as [p|]|destruct (lookup k (g_name g)) as [p|]]; try discriminate; eapply P; eauto.
  - split; intros k y y' H1 H2.
    + unfold by_id in H2. rewrite Hi in H2. destruct (Z.eqb_spec k (it_id x)) as [->|]; [rewrite (obj_last g g' _ Ob) in H2; injection H2 as <-; specialize (V1 y H1); unfold newer; cbn; lia|]. rewrite H1 in H2. destruct (it_name y =? it_name x); [discriminate|]. unfold by_id in H1. destruct (lookup k (g_id g)) as [p|]; [|discriminate]. rewrite (obj_app _ _ _ _ _ Ob H1) in H2. injection H2 as <-. apply newer_refl.
    + unfold by_name in H2. rewrite Hn in H2. destruct (Z.eqb_spec k (it_name x)) as [->|]; [rewrite (obj_last g g' _ Ob) in H2; injection H2 as <-; specialize (V2 y H1); unfold newer; cbn; lia|]. rewrite H1 in H2. destruct (it_id y =? it_id x); [discriminate|]. unfold by_name in H1. destruct (lookup k (g_name g)) as [p|]; [|discriminate]. rewrite (obj_app _ _ _ _ _ Ob H1) in H2. injection H2 as <-. apply newer_refl.
Qed.
Lemma put_newer_by g o x y : obj g o = Some x -> newer x y -> (forall k z z', by_id g k = Some z -> by_id (put g o y) k = Some z' -> newer z z') /\ (forall k z z', by_name g k = Some z -> by_name (put g o y) k = Some z' -> newer z z').
Proof.
  intros E N. unfold by_id, by_name. cbn [put g_id g_name]. fold (put g o y). split; intros k z z' H1 H2; [destruct (lookup k (g_id g)) as [p|]|destruct (lookup k (g_name g)) as [p|]]; try discriminate; eapply (put_newer g o x y); eauto.
Qed.
(** What is found under an id or a name never has a smaller version after a step,
    and a larger one if it differs in anything. *)
Theorem C44_version g p g' : reach g -> step g p = Some g' ->
  (forall k x x', by_id g k = Some x -> by_id g' k = Some x' -> newer x x') /\ (forall k x x', by_name g k = Some x -> by_name g' k = Some x' -> newer x x').
Proof.
  intros R S. pose proof (C44_consistent g R) as C. assert (Id : (forall k x x', by_id g k = Some x -> by_id g k = Some x' -> newer x x') /\ (forall k x x', by_name g k = Some x -> by_name g k = Some x' -> newer x x')) by (split; intros k x x' H H'; rewrite H in H'; injection H' as <-; apply newer_refl).
  destruct p as [id name desc v|id name desc|id v|o v]; cbn [step] in S.
  - unfold add_item in S. eapply add_newer; eauto.
  - eapply add_newer; eauto.
  - injection S as <-. unfold update_item. destruct (id <=? stream_ctrl_id); [exact Id|]. destruct (lookup id (g_id g)) as [o|]; [|exact Id]. destruct (obj g o) as [x|] eqn:E; [|exact Id]. apply (put_newer_by g o x); [exact E|]. unfold newer. cbn. lia.
  - injection S as <-. unfold set_value. destruct (obj g o) as [x|] eqn:E; [|exact Id]. apply (put_newer_by g o x); [exact E|]. unfold newer. cbn. lia.
Qed.
(** Adding an item: it is there afterwards, with its value if it has one; items that
    share neither its id nor its name stay as they are. *)
Theorem C44_add g x g' : reach g -> add_item_obj g x = Some g' ->
  (exists y, by_id g' (it_id x) = Some y /\ by_name g' (it_name x) = Some y /\ same_descr x y /\ (it_value x <> None -> it_value y = it_value x)) /\
  (forall k y, k <> it_id x -> by_id g k = Some y -> it_name y <> it_name x -> by_id g' k = Some y).
Proof.
  intros R E. pose proof (C44_consistent g R) as C. destruct (add_spec g x C) as (g1 & E1 & C' & H). rewrite E in E1. injection E1 as <-. split.
  - enough (T : exists y, by_id g' (it_id x) = Some y /\ same_descr x y /\ (it_value x <> None -> it_value y = it_value x)).
    { destruct T as (y & B & S & V). exists y. split; [exact B|]. split; [|auto]. unfold by_id in B. destruct (lookup (it_id x) (g_id g')) as [o|] eqn:L; [|discriminate]. destruct (c_id _ C' _ _ L) as (z & Z1 & _ & Z3). rewrite B in Z1. injection Z1 as <-. destruct S as (_ & -> & _). unfold by_name. now rewrite Z3. }
    destruct H as [(o & z & L & Eo & S & ->)|(_ & Hi & _ & n & _ & _ & _ & Ob)].
    + destruct (it_value x) as [v|] eqn:Ev; unfold by_id; cbn [put push g_id]; rewrite L.
      * exists (with_value z v). rewrite obj_put, Nat.eqb_refl. rewrite (obj_app g (push g x) x z o eq_refl Eo). repeat split; try apply S.
      * exists z. split; [now apply (obj_app g (push g x) x)|]. split; [exact S|congruence].
    + exists (with_version x n). unfold by_id. rewrite Hi, Z.eqb_refl, (obj_last g g' _ Ob). repeat split.
  - intros k y Nk B Nn. destruct H as [(o & z & L & Eo & S & ->)|(_ & Hi & _ & n & _ & _ & _ & Ob)].
    + assert (exists p, lookup k (g_id g) = Some p /\ obj g p = Some y) as (p & Lp & Ep) by (unfold by_id in B; destruct (lookup k (g_id g)) as [p|]; [eauto|discriminate]). destruct (it_value x) as [v|]; unfold by_id; cbn [put push g_id]; rewrite Lp; [|now apply (obj_app g (push g x) x)].
      rewrite obj_put. destruct (Nat.eqb_spec p o) as [->|]; [|now apply (obj_app g (push g x) x)]. exfalso. destruct (c_id _ C _ _ L) as (w & W1 & W2 & _). destruct (c_id _ C _ _ Lp) as (w' & W1' & W2' & _). congruence.
    + unfold by_id. rewrite Hi. destruct (Z.eqb_spec k (it_id x)); [contradiction|]. rewrite B. destruct (Z.eqb_spec (it_name y) (it_name x)); [contradiction|]. unfold by_id in B. destruct (lookup k (g_id g)) as [p|]; [|discriminate]. now apply (obj_app _ _ _ _ _ Ob).
Qed.

Lemma update_reach g h g' : reach g -> update g h = Some g' -> reach g'.
Proof.
  unfold update. intros R H. destruct (add_descrs g (h_descr h)) as [g1|] eqn:E; [|discriminate]. injection H as <-. assert (R1 : reach g1).
  { revert g R E. induction (h_descr h) as [|[[id name] desc] l IH]; intros g R E; cbn [add_descrs] in E; [injection E as <-; exact R|]. destruct (add_item_obj g (new_item id name desc None)) as [g2|] eqn:E2; [|discriminate]. apply (IH g2); [|exact E]. apply (r_step g (ODescr id name desc)); assumption. }
  clear E. revert g1 R1. induction (h_items h) as [|[id v] l IH]; intros g1 R1; cbn [fold_left]; [exact R1|]. apply IH. apply (r_step g1 (OItem id v)); [exact R1|reflexivity].
Qed.
(** Receiving a heap raises nothing and keeps the group consistent. *)
Theorem C44_update g h : reach g -> exists g', update g h = Some g' /\ consistent g'.
Proof.
  intro R. assert (exists g', update g h = Some g') as (g' & E).
  { unfold update. enough (exists g1, add_descrs g (h_descr h) = Some g1) as (g1 & ->) by eauto. revert g R. induction (h_descr h) as [|[[id name] desc] l IH]; intros g R; cbn [add_descrs]; [eauto|].
    destruct (add_spec g (new_item id name desc None) (C44_consistent g R)) as (g2 & E2 & _). rewrite E2. apply IH. apply (r_step g (ODescr id name desc)); assumption. }
  exists g'. split; [exact E|]. apply C44_consistent. now apply (update_reach g h).
Qed.
(** But across a whole update the version under an id may stay the same although
    the item is another one: if the id is freed by one descriptor and taken by the
    next, the new item knows nothing of the old one. *)
Theorem C44_update_version_refuted : exists g h g' x x', reach g /\ update g h = Some g' /\ by_id g 5000 = Some x /\ by_id g' 5000 = Some x' /\ x <> x' /\ it_version x' = it_version x.
Proof.
  eexists _, {| h_descr := [(5001, 1, 7); (5000, 2, 9)]; h_items := [] |}, _, _, _. split; [apply (r_step g_empty (ODescr 5000 1 7)); [constructor|vm_compute; reflexivity]|]. split; [vm_compute; reflexivity|]. split; [vm_compute; reflexivity|]. split; [vm_compute; reflexivity|]. split; [discriminate|reflexivity].
Qed.

(** *** Example: two items are replaced by one *)
Definition ex_g : option group := match add_item g_empty (Some 5000) 1 7 (Some 10) with Some g => match add_item g None 2 8 (Some 20) with Some g => add_item g (Some 5000) 2 9 None | None => None end | None => None end.
Example C44_ex : option_map (fun g => (by_id g 5000, by_name g 2, by_id g 4096, by_name g 1)) ex_g =
  Some (Some {| it_id := 5000; it_name := 2; it_desc := 9; it_value := None; it_version := 2 |}, Some {| it_id := 5000; it_name := 2; it_desc := 9; it_value := None; it_version := 2 |}, None, None).
Proof. vm_compute. reflexivity. Qed.

Print Assumptions C44_consistent.
Print Assumptions C44_total.
Print Assumptions C44_fresh_id.
Print Assumptions C44_version.
Print Assumptions C44_add.
Print Assumptions C44_update.
Print Assumptions C44_update_version_refuted.
