(** C83: lists of cores mean what they say, and threads run where they are told. *)
From Coq Require Import ZArith List Bool Lia.
From Verif Require Import CmdModel CmdProps RangeModel.
Import ListNotations.
Open Scope Z_scope.

(** A part is a number, or two numbers with a hyphen, which means all numbers from the first
    to the last. *)
Inductive part : str -> list Z -> Prop :=
| part_one ds v : ds <> [] -> decimal ds v -> part ds [v]
| part_range ds ds' a b l : ds <> [] -> ds' <> [] -> decimal ds a -> decimal ds' b ->
    (forall i v, nth_error l i = Some v <-> v = a + Z.of_nat i /\ v <= b) -> part (ds ++ 45 :: ds') l.
Fixpoint join (ps : list str) : str := match ps with [] => [] | [p] => p | p :: t => p ++ 44 :: join t end.

Lemma split_no sep p : ~ In sep p -> split sep p = [p].
Proof.
  induction p as [|c p IH]; intro N; [reflexivity|]. cbn [split]. destruct (Z.eqb_spec c sep) as [->|]; [elim N; now left|]. rewrite IH; [reflexivity|]. intro H. apply N. now right.
Qed.
Lemma split_app sep p s : ~ In sep p -> split sep (p ++ sep :: s) = p :: split sep s.
Proof.
  induction p as [|c p IH]; intro N; cbn [app split]; [now rewrite Z.eqb_refl|]. destruct (Z.eqb_spec c sep) as [->|]; [elim N; now left|]. rewrite IH; [reflexivity|]. intro H. apply N. now right.
Qed.
Lemma split1_no sep p : ~ In sep p -> split1 sep p = None.
Proof.
  induction p as [|c p IH]; intro N; [reflexivity|]. cbn [split1]. destruct (Z.eqb_spec c sep) as [->|]; [elim N; now left|]. rewrite IH; [reflexivity|]. intro H. apply N. now right.
Qed.
Lemma split1_app sep p s : ~ In sep p -> split1 sep (p ++ sep :: s) = Some (p, s).
Proof.
  induction p as [|c p IH]; intro N; cbn [app split1]; [now rewrite Z.eqb_refl|]. destruct (Z.eqb_spec c sep) as [->|]; [elim N; now left|]. rewrite IH; [reflexivity|]. intro H. apply N. now right.
Qed.
Lemma decimal_no ds v c : decimal ds v -> ~ (48 <= c <= 57) -> ~ In c ds.
Proof. intros D N H. apply decimal_digits in D as [D _]. apply N, D, H. Qed.
Lemma py_int_decimal ds v : ds <> [] -> decimal ds v -> py_int ds = Some v.
Proof.
  intros N D. assert (DD := decimal_digits _ _ D). destruct DD as (DD & -> & _). unfold py_int. rewrite strip_id.
  - destruct ds as [|c t]; [now elim N|]. assert (X := DD c (or_introl eq_refl)). destruct (Z.eqb_spec c 43); [lia|]. destruct (Z.eqb_spec c 45); [lia|]. apply (py_num_digits (c :: t) N DD).
  - intros c Hc. apply DD in Hc. unfold py_space. destruct (Z.leb_spec 9 c), (Z.leb_spec c 13), (Z.leb_spec 28 c), (Z.leb_spec c 32); cbn; try reflexivity; lia.
Qed.
Lemma range_nth a b i v : nth_error (range a (b + 1)) i = Some v <-> v = a + Z.of_nat i /\ v <= b.
Proof.
  unfold range. destruct (Nat.lt_ge_cases i (Z.to_nat (b + 1 - a))) as [H|H].
  - rewrite (map_nth_error (fun i => a + Z.of_nat i) i (seq 0 _) (d := i)).
    + split; [intro E; injection E as <-; lia|]. intros [-> _]. reflexivity.
    + rewrite (nth_error_nth' _ O) by (rewrite seq_length; exact H). now rewrite seq_nth by exact H.
  - assert (E : nth_error (map (fun i => a + Z.of_nat i) (seq 0 (Z.to_nat (b + 1 - a)))) i = None) by (apply nth_error_None; rewrite map_length, seq_length; exact H). rewrite E. split; [discriminate|lia].
Qed.
Lemma nth_ext (l l' : list Z) : (forall i v, nth_error l i = Some v <-> nth_error l' i = Some v) -> l = l'.
Proof.
  revert l'. induction l as [|x l IH]; intros [|y l'] H.
  - reflexivity.
  - assert (X := proj2 (H O y) eq_refl). discriminate.
  - assert (X := proj1 (H O x) eq_refl). discriminate.
  - assert (X := proj1 (H O x) eq_refl). cbn in X. injection X as ->. f_equal. apply IH. intros i v. exact (H (S i) v).
Qed.
Lemma parse_part_spec p l : part p l -> parse_part p = Some l /\ ~ In 44 p /\ p <> [].
Proof.
  intros [ds v N D|ds ds' a b l' N N' D D' H]; unfold parse_part.
  - rewrite split1_no by (apply (decimal_no ds v 45 D); lia). rewrite (py_int_decimal ds v N D). split; [reflexivity|]. split; [apply (decimal_no ds v 44 D); lia|exact N].
  - rewrite split1_app by (apply (decimal_no ds a 45 D); lia). rewrite (py_int_decimal ds a N D), (py_int_decimal ds' b N' D'). split; [|split].
    + f_equal. apply nth_ext. intros i v. now rewrite range_nth, H.
    + intro X. apply in_app_or in X as [X|[X|X]]; [revert X; apply (decimal_no ds a 44 D); lia|discriminate|revert X; apply (decimal_no ds' b 44 D'); lia].
    + destruct ds; discriminate.
Qed.

(** A list of parts separated by commas is the list of all their numbers, in order; the empty
    string is the empty list. *)
Theorem C83_parse : forall ps ls, Forall2 part ps ls -> parse_range_list (join ps) = Some (concat ls).
Proof.
  intros ps ls F. destruct F as [|p l ps ls P F]; [reflexivity|].
  assert (G : forall ps ls p l, Forall2 part ps ls -> part p l -> parse_parts (split 44 (join (p :: ps))) = Some (l ++ concat ls)).
  { clear. induction ps as [|q ps IH]; intros ls p l F P; destruct (parse_part_spec p l P) as (E & N & _).
    - inversion F; subst. cbn [join concat]. rewrite (split_no 44 p N). cbn [parse_parts]. rewrite E. now rewrite app_nil_r.
    - inversion F as [|? l' ? ls' Q F']; subst. change (join (p :: q :: ps)) with (p ++ 44 :: join (q :: ps)). rewrite (split_app 44 p _ N). cbn [parse_parts]. rewrite E, (IH ls' q l' F' Q). reflexivity. }
  specialize (G ps ls p l F P). unfold parse_range_list. destruct (join (p :: ps)) as [|c s] eqn:J; [|exact G].
  exfalso. destruct (parse_part_spec p l P) as (_ & _ & N). destruct ps; cbn [join] in J; [now elim N|]. destruct p; discriminate.
Qed.
Print Assumptions C83_parse.
(** "2,3-5,8" *)
Example C83_parse_ex : parse_range_list [50;44;51;45;53;44;56] = Some [2;3;4;5;8].
Proof. reflexivity. Qed.
Example C83_parse_hyp : Forall2 part [[50];[51;45;53];[56]] [[2];[3;4;5];[8]].
Proof.
  assert (D : forall c, 48 <= c <= 57 -> decimal [c] (10 * 0 + (c - 48))) by (intros c Hc; apply (dec_snoc [] 0 c dec_nil Hc)).
  constructor; [|constructor; [|constructor; [|constructor]]].
  - apply (part_one [50] 2); [discriminate|apply (D 50); lia].
  - apply (part_range [51] [53] 3 5); [discriminate|discriminate|apply (D 51); lia|apply (D 53); lia|]. intros i v. destruct i as [|[|[|i]]]; cbn [nth_error].
    1-3: split; [intro E; injection E as <-; lia|intros [-> _]; reflexivity].
    destruct i; split; try discriminate; lia.
  - apply (part_one [56] 8); [discriminate|apply (D 56); lia].
Qed.

(** A list with a letter anywhere in it is refused as a whole. *)
Theorem C83_refused : forall s c, In c s -> (97 <= c <= 122) \/ (65 <= c <= 90) -> parse_range_list s = None.
Proof.
  assert (PT : forall s a u c, In c s -> (97 <= c <= 122) \/ (65 <= c <= 90) -> py_tail a u s = None).
  { induction s as [|x s IH]; intros a u c H L; [destruct H|]. destruct H as [<-|H]; cbn [py_tail].
    - unfold is_digit. destruct (Z.leb_spec 48 x), (Z.leb_spec x 57); try lia; cbn [andb]; destruct (Z.eqb_spec x 95); try lia; reflexivity.
    - destruct (is_digit x); [eapply IH; eauto|]. destruct ((x =? 95) && negb u); [eapply IH; eauto|reflexivity]. }
  assert (PN : forall s c, In c s -> (97 <= c <= 122) \/ (65 <= c <= 90) -> py_num s = None).
  { intros [|x s] c H L; [destruct H|]. unfold py_num. destruct (is_digit x) eqn:D; [|reflexivity]. apply is_digit_spec in D. destruct H as [<-|H]; [lia|]. eapply PT; eauto. }
  assert (LS : forall s c, In c s -> py_space c = false -> In c (lstrip s)).
  { induction s as [|x s IH]; intros c H N; [destruct H|]. cbn [lstrip]. destruct (py_space x) eqn:X; [|exact H]. destruct H as [->|H]; [congruence|auto]. }
  assert (PI : forall s c, In c s -> (97 <= c <= 122) \/ (65 <= c <= 90) -> py_int s = None).
  { intros s c H L. assert (N : py_space c = false) by (unfold py_space; destruct (Z.leb_spec 9 c), (Z.leb_spec c 13), (Z.leb_spec 28 c), (Z.leb_spec c 32); cbn; try reflexivity; lia).
    assert (I : In c (strip s)) by (unfold strip; rewrite <- in_rev; apply LS; [rewrite <- in_rev; now apply LS|exact N]).
    unfold py_int. destruct (strip s) as [|x t]; [destruct I|]. destruct (Z.eqb_spec x 43) as [->|]; [destruct I as [<-|I]; [lia|eapply PN; eauto]|]. destruct (Z.eqb_spec x 45) as [->|]; [destruct I as [<-|I]; [lia|rewrite (PN t c I L); reflexivity]|]. eapply PN; eauto. }
  assert (S1 : forall s a b c, split1 45 s = Some (a, b) -> In c s -> c <> 45 -> In c a \/ In c b).
  { induction s as [|x s IH]; intros a b c E H N; [discriminate|]. cbn [split1] in E. destruct (Z.eqb_spec x 45) as [->|]; [injection E as <- <-; destruct H as [<-|H]; [now elim N|auto]|].
    destruct (split1 45 s) as [[a' b']|]; [|discriminate]. injection E as <- <-. destruct H as [->|H]; [left; now left|]. destruct (IH a' b' c eq_refl H N); [left; now right|auto]. }
  assert (PP : forall p c, In c p -> (97 <= c <= 122) \/ (65 <= c <= 90) -> parse_part p = None).
  { intros p c H L. unfold parse_part. destruct (split1 45 p) as [[a b]|] eqn:E; [|rewrite (PI p c H L); reflexivity]. destruct (S1 p a b c E H ltac:(lia)) as [X|X]; [rewrite (PI a c X L); reflexivity|]. destruct (py_int a); [|reflexivity]. rewrite (PI b c X L). reflexivity. }
  assert (SP : forall s c, In c s -> c <> 44 -> exists p, In p (split 44 s) /\ In c p).
  { induction s as [|x s IH]; intros c H N; [destruct H|]. cbn [split]. destruct (Z.eqb_spec x 44) as [->|].
    - destruct H as [<-|H]; [now elim N|]. destruct (IH c H N) as (p & P1 & P2). exists p. split; [now right|exact P2].
    - destruct H as [->|H].
      + destruct (split 44 s) as [|q qs]; [exists [c]|exists (c :: q)]; split; now left.
      + destruct (IH c H N) as (p & P1 & P2). destruct (split 44 s) as [|q qs]; [destruct P1|]. destruct P1 as [->|P1]; [exists (x :: p); split; [now left|now right]|exists p; split; [now right|exact P2]]. }
  intros s c H L. destruct s as [|x s]; [destruct H|]. unfold parse_range_list. destruct (SP _ c H ltac:(lia)) as (p & P1 & P2).
  revert P1. induction (split 44 (x :: s)) as [|q qs IH]; intro P1; [destruct P1|]. cbn [parse_parts]. destruct P1 as [->|P1]; [now rewrite (PP p c P2 L)|]. destruct (parse_part q); [|reflexivity]. now rewrite IH.
Qed.
Print Assumptions C83_refused.
Example C83_refused_ex : parse_range_list [50;44;120] = None /\ parse_range_list [45;49] = None /\ parse_range_list [50;44] = None.
Proof. repeat split. Qed.

(** The cores of a tool: the main thread runs on the first, thread [i] of the pool on the one
    [i] after the second, round and round; so as long as there are fewer threads than cores
    none shares a core with another or with the main thread. *)
Theorem C83_cores : forall affinity main pool, make_thread_pool affinity = (Some main, pool) ->
  nth_error affinity 0 = Some main /\
  (forall i, pool_core pool i = nth_error affinity (Nat.modulo (i + 1) (length affinity)) /\ pool_core pool i <> None) /\
  (NoDup affinity -> forall i j, (i < length affinity)%nat -> (j < length affinity)%nat -> pool_core pool i = pool_core pool j -> i = j) /\
  (NoDup affinity -> forall i, (i + 1 < length affinity)%nat -> pool_core pool i <> Some main).
Proof.
  intros [|a t] main pool E; [discriminate|]. injection E as <- <-.
  assert (C : forall i, pool_core (t ++ [a]) i = nth_error (a :: t) (Nat.modulo (i + 1) (length (a :: t))) /\ pool_core (t ++ [a]) i <> None).
  { intro i. assert (L : length (t ++ [a]) = S (length t)) by (rewrite app_length; cbn; lia). cbn [length].
    assert (P : pool_core (t ++ [a]) i = nth_error (t ++ [a]) (Nat.modulo i (S (length t)))) by (unfold pool_core; rewrite L; destruct t; reflexivity).
    rewrite P. set (n := S (length t)) in *. assert (M : (i mod n < n)%nat) by (apply Nat.mod_upper_bound; discriminate).
    split; [|apply nth_error_Some; rewrite L; exact M].
    rewrite <- (Nat.add_mod_idemp_l i 1 n) by discriminate. set (k := (i mod n)%nat) in *. destruct (Nat.eq_dec k (length t)) as [->|N].
    - rewrite nth_error_app2, Nat.sub_diag by lia. replace (length t + 1)%nat with n by (unfold n; lia). rewrite Nat.mod_same by discriminate. reflexivity.
    - rewrite nth_error_app1 by (unfold n in M; lia). rewrite Nat.mod_small by (unfold n in *; lia). rewrite Nat.add_1_r. reflexivity. }
  split; [reflexivity|]. split; [exact C|]. split.
  - intros ND i j Hi Hj E. rewrite (proj1 (C i)), (proj1 (C j)) in E. set (n := length (a :: t)) in *. assert (n <> O) by discriminate.
    assert (Q : ((i + 1) mod n = (j + 1) mod n)%nat) by (apply (proj1 (NoDup_nth_error (a :: t)) ND); [apply Nat.mod_upper_bound; assumption|exact E]).
    destruct (Nat.eq_dec (i + 1) n) as [Ei|Ni], (Nat.eq_dec (j + 1) n) as [Ej|Nj].
    + lia.
    + rewrite Ei, Nat.mod_same, Nat.mod_small in Q by lia. lia.
    + rewrite Ej, Nat.mod_same, Nat.mod_small in Q by lia. lia.
    + rewrite !Nat.mod_small in Q by lia. lia.
  - intros ND i Hi E. rewrite (proj1 (C i)), Nat.mod_small in E by exact Hi. assert (Q : (i + 1 = 0)%nat) by (apply (proj1 (NoDup_nth_error (a :: t)) ND); [exact Hi|exact E]). lia.
Qed.
Print Assumptions C83_cores.
Example C83_cores_ex : make_thread_pool [2;3;4] = (Some 2, [3;4;2]) /\ map (pool_core [3;4;2]) [0;1;2;3]%nat = [Some 3; Some 4; Some 2; Some 3].
Proof. split; reflexivity. Qed.
