(** mcdump: invariant of executions in which no receive fails. *)
From Coq Require Import ZArith List Bool Arith Lia Permutation.
From Verif Require Import Base ConcBase DumpWModel DumpWProofs DumpModel DumpSpec.
Import ListNotations.
Open Scope Z_scope.

Definition hand (st : dst) : list handle := match net st with NIn k _ | NPoll k _ | NPush k => [k] | _ => [] end.
Definition chand (st : dst) : list handle := match coll st with CIov k _ | CPost k | CFree k => [k] | _ => [] end.
Definition handles (st : dst) : list handle := hand st ++ ring st ++ chand st ++ free st.
(** The bytes of a chunk from an iovec on *)
Definition pend (m : nat -> nat -> entry) (k : handle) (i : nat) : list Z := concat (map (iov m (k_id k)) (seq i (2 * k_n k - i))).
Definition reading (st : dst) : list (handle * nat) := match coll st with CIov k i => [(k, i)] | _ => [] end.
Definition tocome (st : dst) : list Z :=
  flat_map (fun x => pend (mem st) (fst x) (snd x)) (reading st) ++ flat_map (fun k => pend (mem st) k 0) (ring st) ++ flat_map (fun k => pend (mem st) k 0) (hand st).
Definition notlast (st : dst) (k : handle) : bool := match g_last st with Some l => negb (k_id l =? k_id k)%nat | None => true end.
Definition front (c : dconf) (st : dst) : list (nat * nat) :=
  match hand st with [k] => slots c (k_id k) (k_n k) | _ => match g_last st with Some k => slots c (k_id k) (k_n k) | None => [] end end.
Definition cpost (c : dconf) (st : dst) : list (nat * nat) := match coll st with CFree k => if notlast st k then slots c (k_id k) 0 else [] | _ => [] end.
Definition owned (c : dconf) (st : dst) : list (nat * nat) :=
  front c st ++ flat_map (fun k => slots c (k_id k) 0) (filter (notlast st) (free st)) ++ cpost c st.
Definition rec_bytes (c : dconf) (x : list Z * Z) : list Z :=
  le 4 (if stamps c then snd x / 10 ^ 9 else 0) ++ le 4 (if stamps c then snd x mod 10 ^ 9 else 0) ++ le 4 (Z.of_nat (length (fst x))) ++ le 4 (Z.of_nat (length (fst x))) ++ fst x.
Definition total_len (l : list (list Z * Z)) : Z := fold_right (fun x z => zlen (fst x) + z) 0 l.
Definition matches (m : nat -> nat -> entry) (cp : compl) (x : list Z * Z) : Prop :=
  cp_ok cp = true /\ cp_len cp = length (fst x) /\ cp_ns cp = snd x /\ firstn (cp_len cp) (e_data (m (cp_chunk cp) (cp_slot cp))) = fst x.
Definition early (p : wpc) : Prop := match p with WIdle | WCopy _ | WPush _ false | WPop _ false => True | _ => False end.
Definition slot_of (cp : compl) : nat * nat := (cp_chunk cp, cp_slot cp).

(** After close was called: WThrew and WTerminate only after a failed write *)
Definition endpc (w : wst) : Prop :=
  match w_pc w with
  | WPush _ true | WPop _ true | WStop | WJoin _ | WTrunc | WClosed => True
  | WThrew | WTerminate => exists i, nth_error (w_disks w) i = Some DFailed
  | _ => False
  end.

Record dinv (c : dconf) (st : dst) : Prop := {
  j_w : winv (d_w c) (wr st);
  j_ids : Permutation (map k_id (handles st)) (seq 0 (n_chunks c));
  j_slots : map slot_of (cq st) ++ posted st = owned c st;
  j_data : exists pol pnd, g_recvd st = pol ++ pnd /\ packets st = zlen pol /\ bytes st = total_len pol /\ Forall2 (matches (mem st)) (cq st) pnd /\
           w_all (wr st) ++ match coll st with CStart => file_header c | _ => [] end ++ tocome st = file_header c ++ flat_map (rec_bytes c) pol;
  j_len : Forall (fun x => zlen (fst x) <= snaplen c) (g_recvd st);
  j_err : errors st = 0;
  j_full : forall k, In k (ring st) \/ (exists i, coll st = CIov k i) \/ coll st = CPost k -> if k_full k then k_n k = max_records c else g_last st = Some k;
  j_push : forall k, net st = NPush k -> k_full k = (k_n k =? max_records c)%nat /\ (w_stop (wr st) = true \/ remaining st = 0 \/ k_n k = max_records c);
  j_free : forall k, In k (free st) \/ coll st = CFree k -> notlast st k = true -> k_n k = 0%nat;
  j_last : forall l, g_last st = Some l -> hand st = [] /\ net st <> NPop /\ (w_stop (wr st) = true \/ remaining st = 0) /\ In l (ring st ++ chand st ++ free st);
  j_exp : forall k e, net st = NIn k e \/ net st = NPoll k e -> (k_n k + e <= max_records c)%nat /\ Z.of_nat e = Z.min (Z.of_nat (max_records c) - Z.of_nat (k_n k)) (remaining st) /\ (net st = NPoll k e -> (0 < e)%nat);
  j_rem : 0 <= remaining st /\ if count c =? no_limit then remaining st = no_limit else packets st + remaining st = count c;
  j_pop : net st = NPop -> 0 < remaining st;
  j_rstop : rstop st = true <-> net st = NDone;
  j_ended : net st = NStop \/ net st = NDone -> w_stop (wr st) = true \/ remaining st = 0;
  j_end : coll st = CEnd \/ coll st = COver -> net st = NDone /\ ring st = [];
  j_lfull : forall l, g_last st = Some l -> k_full l = false;
  j_over : coll st = COver -> endpc (wr st);
  j_early : coll st <> COver -> early (w_pc (wr st)) }.
Definition dconf_ok (c : dconf) : Prop := wconf_ok (d_w c) /\ (0 < max_records c)%nat /\ (0 < n_chunks c)%nat /\ Z.of_nat (max_records c) <= no_limit /\ 0 <= count c <= no_limit /\ 0 <= snaplen c < 2 ^ 32.

(** *** Lists *)
Lemma flat_ext {A B} (f g : A -> list B) l : (forall x, In x l -> f x = g x) -> flat_map f l = flat_map g l.
Proof. induction l as [|a l IH]; intro H; [reflexivity|]. cbn [flat_map]. rewrite H by now left. rewrite IH; [reflexivity|]. intros x Hx. apply H. now right. Qed.
Lemma ids_inj l x y : NoDup (map k_id l) -> In x l -> In y l -> k_id x = k_id y -> x = y.
Proof.
  induction l as [|a l IH]; intros N Hx Hy E; [destruct Hx|]. cbn [map] in N. inversion_clear N as [|? ? N1 N2]. destruct Hx as [->|Hx], Hy as [->|Hy]; auto; exfalso; apply N1; [rewrite E|rewrite <- E]; now apply in_map.
Qed.
Lemma ids_apart l l' x y : NoDup (map k_id (l ++ l')) -> In x l -> In y l' -> k_id x <> k_id y.
Proof.
  induction l as [|a l IH]; intros N Hx Hy E; [destruct Hx|]. cbn [app map] in N. inversion_clear N as [|? ? N1 N2]. destruct Hx as [->|Hx]; [|now apply IH]. apply N1. rewrite E. apply in_map, in_or_app. now right.
Qed.
Lemma in_slots c id from x : In x (slots c id from) <-> fst x = id /\ (from <= snd x < max_records c)%nat.
Proof.
  unfold slots. rewrite in_map_iff. split; [intros (s & <- & H); apply in_seq in H; cbn; split; [reflexivity|lia]|]. destruct x as [i s]. cbn. intros [-> H]. exists s. split; [reflexivity|]. apply in_seq. lia.
Qed.
Lemma nodup_slots c id from : NoDup (slots c id from). Proof. unfold slots. apply FinFun.Injective_map_NoDup; [intros x y H; congruence|apply seq_NoDup]. Qed.
Lemma nodup_app' {A} (l l' : list A) : NoDup l -> NoDup l' -> (forall x, In x l -> In x l' -> False) -> NoDup (l ++ l').
Proof. induction 1 as [|a l H _ IH]; intros N D; [exact N|]. cbn [app]. constructor; [intro X; apply in_app_or in X as [X|X]; [now apply H|eapply D; [now left|exact X]]|]. apply IH; [exact N|]. intros x X Y. eapply D; [right; exact X|exact Y]. Qed.
Lemma nodup_r {A} (l l' : list A) : NoDup (l ++ l') -> NoDup l'. Proof. induction l as [|a l IH]; [auto|]. cbn [app]. intro N. inversion_clear N. auto. Qed.
Lemma nodup_flat c l : NoDup (map k_id l) -> NoDup (flat_map (fun k => slots c (k_id k) 0) l).
Proof.
  induction l as [|k l IH]; intro N; [constructor|]. cbn [map] in N. inversion_clear N as [|? ? N1 N2]. cbn [flat_map]. apply nodup_app'; [apply nodup_slots|now apply IH|]. intros x X Y. apply in_slots in X as [X _]. apply in_flat_map in Y as (k' & K & Y). apply in_slots in Y as [Y _]. apply N1. rewrite <- X, Y. now apply in_map.
Qed.
Lemma nodup_filter_map (f : handle -> bool) l : NoDup (map k_id l) -> NoDup (map k_id (filter f l)).
Proof.
  induction l as [|k l IH]; intro N; [constructor|]. cbn [map] in N. inversion_clear N as [|? ? N1 N2]. cbn [filter]. destruct (f k); [|now apply IH]. cbn [map]. constructor; [|now apply IH]. intro X. apply N1. apply in_map_iff in X as (y & E & Y). apply filter_In in Y as [Y _]. rewrite <- E. now apply in_map.
Qed.
Lemma slots_cons c id n : (n < max_records c)%nat -> slots c id n = (id, n) :: slots c id (S n).
Proof. intro H. unfold slots. replace (max_records c - n)%nat with (S (max_records c - S n)) by lia. reflexivity. Qed.
Lemma slots_full c id n : (max_records c <= n)%nat -> slots c id n = []. Proof. intro H. unfold slots. now replace (max_records c - n)%nat with 0%nat by lia. Qed.

Lemma ids_nodup c st : dinv c st -> NoDup (map k_id (handles st)).
Proof. intro I. eapply Permutation_NoDup; [apply Permutation_sym, (j_ids c st I)|apply seq_NoDup]. Qed.
Lemma in_handles st k : In k (handles st) <-> In k (hand st) \/ In k (ring st) \/ In k (chand st) \/ In k (free st).
Proof. unfold handles. rewrite !in_app_iff. tauto. Qed.

(** Work requests that are posted or completed are not among those whose data waits to be
    written. *)
Definition waiting (st : dst) (k : handle) : Prop := In k (hand st) \/ In k (ring st) \/ exists i, coll st = CIov k i.
Lemma owned_safe c st k x : dinv c st -> In x (owned c st) -> waiting st k -> fst x = k_id k -> (k_n k <= snd x)%nat.
Proof.
  intros I H W E. pose proof (ids_nodup c st I) as N. assert (Wh : In k (handles st)). { apply in_handles. destruct W as [W|[W|(i & W)]]; auto. right. right. left. unfold chand. rewrite W. now left. }
  assert (Hk : forall k', In k' (handles st) -> k_id k' = fst x -> k' = k) by (intros k' Hk' E'; eapply ids_inj; eauto; congruence).
  unfold owned in H. apply in_app_or in H as [H|H]; [|apply in_app_or in H as [H|H]].
  - unfold front in H. destruct (hand st) as [|k0 [|? ?]] eqn:Eh.
    + destruct (g_last st) as [l|] eqn:El; [|destruct H]. apply in_slots in H as [H1 H2]. destruct (j_last c st I l El) as (_ & _ & _ & Il). assert (l = k) as <-; [|lia]. apply Hk; [|congruence]. unfold handles. apply in_or_app. now right.
    + apply in_slots in H as [H1 H2]. assert (k0 = k) as <-; [|lia]. apply Hk; [|congruence]. apply in_handles. left. rewrite Eh. now left.
    + exfalso. unfold hand in Eh. destruct (net st); discriminate.
  - exfalso. apply in_flat_map in H as (k' & Hf & Hs). apply filter_In in Hf as [Hf _]. apply in_slots in Hs as [Hs _]. unfold handles in N. rewrite !app_assoc in N. eapply (ids_apart _ _ k k' N); [|exact Hf|congruence]. rewrite <- app_assoc. rewrite !in_app_iff. destruct W as [W|[W|(i & W)]]; auto. right. right. unfold chand. rewrite W. now left.
  - exfalso. unfold cpost in H. destruct (coll st) as [| | | |k'| |] eqn:Ec; try destruct H. destruct (notlast st k'); [|destruct H]. apply in_slots in H as [H _]. unfold handles in N. rewrite (app_assoc (hand st)) in N. eapply (ids_apart _ _ k k' N); [| |congruence]; [|apply in_or_app; left; unfold chand; rewrite Ec; now left]. apply in_or_app. destruct W as [W|[W|(i & W)]]; auto. congruence.
Qed.
Lemma owned_nodup c st : dinv c st -> NoDup (owned c st).
Proof.
  intro I. pose proof (ids_nodup c st I) as N. unfold owned. assert (Nf : NoDup (map k_id (free st))) by (unfold handles in N; rewrite !map_app in N; do 3 apply nodup_r in N; exact N).
  apply nodup_app'.
  - unfold front. destruct (hand st) as [|? [|? ?]]; try apply nodup_slots; destruct (g_last st); try constructor; apply nodup_slots.
  - apply nodup_app'.
    + apply nodup_flat. now apply nodup_filter_map.
    + unfold cpost. destruct (coll st); try constructor. destruct (notlast st k); [apply nodup_slots|constructor].
    + intros x X Y. apply in_flat_map in X as (k' & Hf & X). apply filter_In in Hf as [Hf _]. apply in_slots in X as [X _]. unfold cpost in Y. destruct (coll st) as [| | | |k| |] eqn:Ec; try destruct Y. destruct (notlast st k); [|destruct Y]. apply in_slots in Y as [Y _]. unfold handles in N. rewrite !app_assoc in N. eapply (ids_apart _ _ k k' N); [|exact Hf|congruence]. apply in_or_app. right. unfold chand. rewrite Ec. now left.
  - intros x X Y. unfold front in X. destruct (hand st) as [|k0 [|? ?]] eqn:Eh; [| |unfold hand in Eh; destruct (net st); discriminate].
    + destruct (g_last st) as [l|] eqn:El; [|destruct X]. apply in_slots in X as [X _]. apply in_app_or in Y as [Y|Y].
      * apply in_flat_map in Y as (k' & Hf & Y). apply filter_In in Hf as [_ Hf]. apply in_slots in Y as [Y _]. unfold notlast in Hf. rewrite El in Hf. apply negb_true_iff, Nat.eqb_neq in Hf. congruence.
      * unfold cpost in Y. destruct (coll st); try destruct Y. unfold notlast in Y. rewrite El in Y. destruct (Nat.eqb_spec (k_id l) (k_id k)); [destruct Y|]. apply in_slots in Y as [Y _]. congruence.
    + apply in_slots in X as [X _]. unfold handles in N. rewrite Eh in N. assert (Ap : forall k', In k' (ring st ++ chand st ++ free st) -> k_id k0 <> k_id k') by (intros; eapply (ids_apart [k0]); [exact N|now left|assumption]). apply in_app_or in Y as [Y|Y].
      * apply in_flat_map in Y as (k' & Hf & Y). apply filter_In in Hf as [Hf _]. apply in_slots in Y as [Y _]. apply (Ap k'); [rewrite !in_app_iff; auto|congruence].
      * unfold cpost in Y. destruct (coll st) as [| | | |k'| |] eqn:Ec; try destruct Y. destruct (notlast st k'); [|destruct Y]. apply in_slots in Y as [Y _]. apply (Ap k'); [rewrite !in_app_iff; right; left; unfold chand; rewrite Ec; now left|congruence].
Qed.
Lemma pend_ext m m' k i : (forall s, (s < k_n k)%nat -> m' (k_id k) s = m (k_id k) s) -> pend m' k i = pend m k i.
Proof.
  intro H. unfold pend. f_equal. apply map_ext_in. intros j Hj. apply in_seq in Hj. unfold iov. rewrite H; [reflexivity|]. apply Nat.div_lt_upper_bound; lia.
Qed.
Lemma tocome_ext st m' : (forall k s, waiting st k -> (s < k_n k)%nat -> m' (k_id k) s = mem st (k_id k) s) ->
  flat_map (fun x => pend m' (fst x) (snd x)) (reading st) ++ flat_map (fun k => pend m' k 0) (ring st) ++ flat_map (fun k => pend m' k 0) (hand st) = tocome st.
Proof.
  intro H. unfold tocome. f_equal; [|f_equal]; apply flat_ext; intros x Hx; apply pend_ext; intros s Hs; apply H; auto; unfold waiting; auto.
  right. right. unfold reading in Hx. destruct (coll st); try destruct Hx as [<-|[]]; try destruct Hx. cbn. now exists i.
Qed.
Lemma raise_inv c w : winv c w -> winv c (raise_stop w).
Proof. intros []. constructor; unfold raise_stop; cbn [w_pc w_cur w_total w_ring w_rstop w_free w_disks w_file w_stop w_all]; auto. Qed.

Lemma dinv_init c m wm : dconf_ok c -> dinv c (dinit c m wm).
Proof.
  intros (W & M & N & Ml & Ct & _). constructor; unfold dinit; cbn [net coll ring rstop free posted cq mem remaining packets bytes errors wr g_recvd g_last]; try discriminate.
  - destruct W as (A & B & _). now apply winv_init.
  - unfold handles, hand, chand. cbn [net coll ring free app]. rewrite map_map. cbn [k_id]. rewrite map_id. apply Permutation_refl.
  - unfold owned, front, cpost, hand, notlast. cbn [net coll free g_last app]. rewrite app_nil_r. cbn [map app].
    assert (X : forall n j, flat_map (fun i => slots c i 0) (seq j n) = flat_map (fun k => slots c (k_id k) 0) (filter (fun _ => true) (map (fun i => {| k_id := i; k_n := 0; k_full := false |}) (seq j n)))) by (induction n as [|n IH]; intro j; [reflexivity|]; cbn [seq flat_map map filter k_id]; now rewrite IH). apply X.
  - exists [], []. repeat split; constructor.
  - constructor.
  - reflexivity.
  - intros k [[]|[(i & X)|X]]; discriminate.
  - intros k [H|H] _; [|discriminate]. apply in_map_iff in H as (i & <- & _). reflexivity.
  - intros k e [H|H]; discriminate.
  - split; [lia|]. destruct (Z.eqb_spec (count c) no_limit); [assumption|lia].
  - split; discriminate.
  - intros [H|H]; discriminate.
  - intros [H|H]; discriminate.
  - intros _. exact Logic.I.
Qed.

Lemma matches_ext m m' cp x : e_data (m' (cp_chunk cp) (cp_slot cp)) = e_data (m (cp_chunk cp) (cp_slot cp)) -> matches m cp x -> matches m' cp x.
Proof. unfold matches. intros ->. auto. Qed.
Lemma dinv_recv c st pkt ns st' : dinv c st -> hw_recv c st pkt ns = Some st' -> dinv c st'.
Proof.
  intros I H. unfold hw_recv in H. destruct (posted st) as [|[id s] p] eqn:Ep; [discriminate|]. destruct (Z.leb_spec (zlen pkt) (snaplen c)) as [Lp|]; [|discriminate]. injection H as <-.
  pose proof (owned_nodup c st I) as No. assert (Io : In (id, s) (owned c st)) by (rewrite <- (j_slots c st I), Ep; apply in_or_app; right; now left).
  assert (Safe : forall k s', waiting st k -> (s' < k_n k)%nat -> ((k_id k =? id)%nat && (s' =? s)%nat) = false).
  { intros k s' W L. destruct (Nat.eqb_spec (k_id k) id) as [E|]; [|reflexivity]. cbn [andb]. apply Nat.eqb_neq. pose proof (owned_safe c st k (id, s) I Io W (eq_sym E)) as X. cbn in X. lia. }
  set (e' := {| e_data := pkt ++ skipn (length pkt) (e_data (mem st id s)); e_sec := e_sec (mem st id s); e_nsec := e_nsec (mem st id s); e_incl := e_incl (mem st id s); e_orig := e_orig (mem st id s); e_iov := e_iov (mem st id s) |}).
  destruct I. constructor; cbn [net coll ring rstop free posted cq mem remaining packets bytes errors wr g_recvd g_last]; auto.
  - rewrite map_app, <- app_assoc. cbn [map app slot_of cp_chunk cp_slot]. rewrite Ep in j_slots0. exact j_slots0.
  - destruct j_data0 as (pol & pnd & E1 & E2 & E3 & E4 & E5). exists pol, (pnd ++ [(pkt, ns)]). split; [rewrite E1, <- app_assoc; reflexivity|]. split; [exact E2|]. split; [exact E3|]. split.
    + apply Forall2_app.
      * assert (Nc : forall cp, In cp (cq st) -> slot_of cp <> (id, s)). { intros cp Hc X. rewrite <- j_slots0, Ep in No. apply NoDup_remove_2 in No. apply No, in_or_app. left. rewrite <- X. now apply in_map. }
        clear - E4 Nc. induction E4 as [|cp x l l' H _ IH]; constructor; [|apply IH; intros; apply Nc; now right]. eapply matches_ext; [|exact H]. unfold set_mem. assert (slot_of cp <> (id, s)) as Ne by (apply Nc; now left). unfold slot_of in Ne. destruct (Nat.eqb_spec (cp_chunk cp) id), (Nat.eqb_spec (cp_slot cp) s); cbn [andb]; try reflexivity. congruence.
      * constructor; [|constructor]. unfold matches, set_mem, e'. cbn [cp_ok cp_len cp_ns cp_chunk cp_slot fst snd]. rewrite !Nat.eqb_refl. cbn [andb e_data]. repeat split. now rewrite firstn_app, Nat.sub_diag, firstn_O, app_nil_r, firstn_all.
    + rewrite <- E5. do 2 f_equal. unfold tocome at 1. cbn [reading coll ring hand net mem]. apply (tocome_ext st). intros k s' W L. unfold set_mem. now rewrite (Safe k s' W L).
  - apply Forall_app. split; [assumption|]. repeat constructor. exact Lp.
Qed.

Lemma perm_ids c st st' : Permutation (handles st) (handles st') -> Permutation (map k_id (handles st)) (seq 0 (n_chunks c)) -> Permutation (map k_id (handles st')) (seq 0 (n_chunks c)).
Proof. intros P H. eapply Permutation_trans; [apply Permutation_map, Permutation_sym, P|exact H]. Qed.
Lemma pend_grow m k x : firstn (e_iov (m (k_id k) (k_n k))) (e_data (m (k_id k) (k_n k))) = x -> pend m {| k_id := k_id k; k_n := S (k_n k); k_full := k_full k |} 0 = pend m k 0 ++ record_header (m (k_id k) (k_n k)) ++ x.
Proof.
  intro H. unfold pend. cbn [k_id k_n]. rewrite !Nat.sub_0_r. replace (2 * S (k_n k))%nat with (2 * k_n k + 2)%nat by lia. rewrite seq_app, map_app, concat_app. f_equal. cbn [seq map concat Nat.add]. unfold iov.
  replace (Nat.even (2 * k_n k)) with true by (symmetry; apply Nat.even_spec; now exists (k_n k)). replace (Nat.even (S (2 * k_n k))) with false by (rewrite Nat.even_succ, <- Nat.negb_even; replace (Nat.even (2 * k_n k)) with true; [reflexivity|symmetry; apply Nat.even_spec; now exists (k_n k)]).
  replace (2 * k_n k / 2)%nat with (k_n k) by (rewrite Nat.mul_comm, Nat.div_mul; lia). replace (S (2 * k_n k) / 2)%nat with (k_n k) by (apply (Nat.div_unique _ 2 _ 1); lia). rewrite app_nil_r, H. reflexivity.
Qed.

Lemma total_snoc l x : total_len (l ++ [x]) = total_len l + zlen (fst x).
Proof. unfold total_len. induction l as [|a l IH]; cbn [app fold_right]; [lia|]. rewrite IH. lia. Qed.
Lemma flat_map_snoc {A B} (f : A -> list B) l x : flat_map f (l ++ [x]) = flat_map f l ++ f x. Proof. rewrite flat_map_app. cbn [flat_map]. now rewrite app_nil_r. Qed.
Lemma Forall2_snoc_matches m q pnd : Forall2 (matches m) q pnd -> forall cp, hd_error q = Some cp -> exists x r, pnd = x :: r /\ matches m cp x /\ Forall2 (matches m) (tl q) r.
Proof. destruct 1 as [|cp0 x q' r H F]; cbn; [discriminate|]. intros cp E. injection E as <-. now exists x, r. Qed.

Lemma dinv_net c st got st' : dconf_ok c -> dinv c st -> net_step c st got = Some st' -> dinv c st'.
Proof.
  intros C I H. pose proof C as (_ & Mp & _ & Ml & Ct & _). unfold net_step in H. destruct (net st) as [| |k e|k e|k| |] eqn:En; try discriminate.
  - (* outer loop *) injection H as <-. destruct (w_stop (wr st)) eqn:Es; [|destruct (Z.ltb_spec 0 (remaining st)) as [Hr|Hr]]; cbn [orb negb].
    + destruct I. constructor; unfold set_net; cbn [net coll ring rstop free posted cq mem remaining packets bytes errors wr g_recvd g_last]; auto; try discriminate.
      * unfold handles, hand in *. rewrite En in j_ids0. exact j_ids0.
      * unfold owned, front, hand in *. rewrite En in j_slots0. exact j_slots0.
      * destruct j_data0 as (pol & pnd & E1 & E2 & E3 & E4 & E5). exists pol, pnd. repeat split; auto. unfold tocome, hand in *. rewrite En in E5. exact E5.
      * intros l Hl. destruct (j_last0 l Hl) as (_ & _ & X). split; [reflexivity|]. split; [discriminate|exact X].
      * intros k e [X|X]; discriminate.
      * rewrite j_rstop0, En. split; discriminate.
      * intros X. apply j_end0 in X as [X _]. congruence.
    + assert (Nl : g_last st = None) by (destruct (g_last st) as [l|] eqn:El; [|reflexivity]; destruct (j_last c st I l El) as (_ & _ & [X|X] & _); [congruence|lia]).
      destruct I. constructor; unfold set_net; cbn [net coll ring rstop free posted cq mem remaining packets bytes errors wr g_recvd g_last]; auto; try discriminate.
      * unfold handles, hand in *. rewrite En in j_ids0. exact j_ids0.
      * unfold owned, front, hand in *. rewrite En in j_slots0. exact j_slots0.
      * destruct j_data0 as (pol & pnd & E1 & E2 & E3 & E4 & E5). exists pol, pnd. repeat split; auto. unfold tocome, hand in *. rewrite En in E5. exact E5.
      * intros l Hl. congruence.
      * intros k e [X|X]; discriminate.
      * rewrite j_rstop0, En. split; discriminate.
      * intros [X|X]; discriminate.
      * intros X. apply j_end0 in X as [X _]. congruence.
    + destruct I. constructor; unfold set_net; cbn [net coll ring rstop free posted cq mem remaining packets bytes errors wr g_recvd g_last]; auto; try discriminate.
      * unfold handles, hand in *. rewrite En in j_ids0. exact j_ids0.
      * unfold owned, front, hand in *. rewrite En in j_slots0. exact j_slots0.
      * destruct j_data0 as (pol & pnd & E1 & E2 & E3 & E4 & E5). exists pol, pnd. repeat split; auto. unfold tocome, hand in *. rewrite En in E5. exact E5.
      * intros l Hl. destruct (j_last0 l Hl) as (_ & _ & X). split; [reflexivity|]. split; [discriminate|exact X].
      * intros k e [X|X]; discriminate.
      * rewrite j_rstop0, En. split; discriminate.
      * intros _. right. lia.
      * intros X. apply j_end0 in X as [X _]. congruence.
  - (* pop *) destruct (free st) as [|k fr] eqn:Ef; [discriminate|]. injection H as <-.
    assert (Nl : g_last st = None) by (destruct (g_last st) as [l|] eqn:El; [|reflexivity]; destruct (j_last c st I l El) as (_ & X & _); congruence).
    assert (K0 : k_n k = 0%nat) by (apply (j_free c st I); [left; rewrite Ef; now left|unfold notlast; now rewrite Nl]). pose proof (j_pop c st I En) as Rp.
    destruct I. constructor; cbn [net coll ring rstop free posted cq mem remaining packets bytes errors wr g_recvd g_last]; auto; try discriminate.
    + eapply perm_ids; [|exact j_ids0]. unfold handles, hand. cbn [net ring chand coll free]. rewrite En, Ef. cbn [app]. rewrite !app_assoc. apply Permutation_sym, Permutation_middle.
    + rewrite j_slots0. unfold owned, front, hand, cpost, notlast. cbn [net coll free g_last]. rewrite En, Ef, Nl. cbn [filter flat_map app]. rewrite K0, <- app_assoc. reflexivity.
    + destruct j_data0 as (pol & pnd & E1 & E2 & E3 & E4 & E5). exists pol, pnd. repeat split; auto. rewrite <- E5. unfold tocome, hand, reading. cbn [net coll ring mem]. rewrite En. cbn [flat_map]. unfold pend at 3. rewrite K0. cbn [Nat.mul Nat.sub seq map concat app]. reflexivity.
    + intros k1 [X|X]; apply j_free0; [left; rewrite Ef; now right|now right].
    + intros l Hl. congruence.
    + intros k1 e1 [X|X]; [|discriminate]. injection X as <- <-. rewrite K0. destruct (Z.ltb_spec (remaining st) (Z.of_nat (max_records c))); repeat split; try discriminate; lia.
    + rewrite j_rstop0, En. split; discriminate.
    + intros [X|X]; discriminate.
    + intros X. apply j_end0 in X as [X _]. congruence.
  - (* inner loop *) injection H as <-.
    assert (Nl : g_last st = None) by (destruct (g_last st) as [l|] eqn:El; [|reflexivity]; destruct (j_last c st I l El) as (X & _); unfold hand in X; rewrite En in X; discriminate).
    destruct (j_exp c st I k e (or_introl En)) as (X1 & X2 & _).
    set (p := if w_stop (wr st) || (e =? 0)%nat then NPush {| k_id := k_id k; k_n := k_n k; k_full := (k_n k =? max_records c)%nat |} else NPoll k e).
    assert (P : (exists f, p = NPush {| k_id := k_id k; k_n := k_n k; k_full := f |} /\ f = (k_n k =? max_records c)%nat /\ (w_stop (wr st) = true \/ e = 0%nat)) \/ (p = NPoll k e /\ e <> 0%nat)).
    { unfold p. destruct (w_stop (wr st)); [left; eexists; split; [reflexivity|split; [reflexivity|now left]]|]. destruct (Nat.eqb_spec e 0); [left; eexists; split; [reflexivity|split; [reflexivity|now right]]|right; split; [reflexivity|assumption]]. }
    assert (Hh : exists k', hand (set_net st p) = [k'] /\ k_id k' = k_id k /\ k_n k' = k_n k) by (destruct P as [(f & -> & _)|[-> _]]; eexists; split; try reflexivity; split; reflexivity). destruct Hh as (k' & Hh & Hi & Hn).
    destruct I. constructor; unfold set_net; cbn [coll ring rstop free posted cq mem remaining packets bytes errors wr g_recvd g_last net]; auto; fold (set_net st p).
    + unfold handles in *. rewrite Hh. unfold hand in j_ids0. rewrite En in j_ids0. cbn [app map] in *. now rewrite Hi.
    + rewrite j_slots0. unfold owned, front. rewrite Hh, Hi, Hn. unfold hand. rewrite En. reflexivity.
    + destruct j_data0 as (pol & pnd & E1 & E2 & E3 & E4 & E5). exists pol, pnd. repeat split; auto. rewrite <- E5. unfold tocome. rewrite Hh. unfold hand. rewrite En. cbn [flat_map]. unfold pend at 3 6. rewrite Hi, Hn. reflexivity.
    + intros k1 X. destruct P as [(f & -> & -> & P)|[-> _]]; [|discriminate]. injection X as <-. cbn [k_full k_n]. split; [reflexivity|]. destruct P as [P|P]; [now left|]. subst e. right. lia.
    + intros l Hl. congruence.
    + intros k1 e1 X. destruct P as [(f & -> & _)|[-> P]]; [destruct X; discriminate|]. destruct X as [X|X]; [discriminate|]. injection X as <- <-. repeat split; auto; lia.
    + intro X. destruct P as [(f & -> & _)|[-> P]]; discriminate.
    + rewrite j_rstop0, En. destruct P as [(f & -> & _)|[-> P]]; split; discriminate.
    + destruct P as [(f & -> & _)|[-> P]]; intros [X|X]; discriminate.
    + intros X. apply j_end0 in X as [X _]. congruence.
  - (* poll *) destruct got.
    2:{ injection H as <-. destruct I. constructor; unfold set_net; cbn [net coll ring rstop free posted cq mem remaining packets bytes errors wr g_recvd g_last]; auto; try discriminate.
      * unfold handles, hand in *. rewrite En in j_ids0. exact j_ids0.
      * unfold owned, front, hand in *. rewrite En in j_slots0. exact j_slots0.
      * destruct j_data0 as (pol & pnd & E1 & E2 & E3 & E4 & E5). exists pol, pnd. repeat split; auto. unfold tocome, hand in *. rewrite En in E5. exact E5.
      * intros l Hl. destruct (j_last0 l Hl) as (X & _). unfold hand in X. rewrite En in X. discriminate.
      * intros k1 e1 [X|X]; [|discriminate]. injection X as <- <-. destruct (j_exp0 k e (or_intror En)) as (X1 & X2 & _). repeat split; auto. discriminate.
      * rewrite j_rstop0, En. split; discriminate.
      * intros [X|X]; discriminate.
      * intros X. apply j_end0 in X as [X _]. congruence. }
    destruct (cq st) as [|cp q] eqn:Eq; [discriminate|]. destruct (j_exp c st I k e (or_intror En)) as (X1 & X2 & X3). specialize (X3 En).
    assert (Nl : g_last st = None) by (destruct (g_last st) as [l|] eqn:El; [|reflexivity]; destruct (j_last c st I l El) as (X & _); unfold hand in X; rewrite En in X; discriminate).
    assert (Hk : slot_of cp = (k_id k, k_n k) /\ map slot_of q ++ posted st = slots c (k_id k) (S (k_n k)) ++ flat_map (fun k => slots c (k_id k) 0) (filter (notlast st) (free st)) ++ cpost c st).
    { pose proof (j_slots c st I) as J. rewrite Eq in J. unfold owned, front, hand in J. rewrite En in J. rewrite slots_cons in J by lia. cbn [map app] in J. injection J as J1 J2 J3. unfold slot_of. split; [now rewrite J1, J2|exact J3]. }
    destruct Hk as [Hk Hq]. unfold slot_of in Hk. injection Hk as Hk1 Hk2.
    destruct (j_data c st I) as (pol & pnd & E1 & E2 & E3 & E4 & E5). rewrite Eq in E4. inversion E4 as [|? x ? pnd' Mx E4' Z1 Z2]; subst pnd. destruct Mx as (M1 & M2 & M3 & M4). rewrite Hk1, Hk2 in M4.
    rewrite M1 in H. injection H as <-. rewrite Hk2. set (e' := {| e_data := e_data (mem st (k_id k) (k_n k)); e_sec := if stamps c then cp_ns cp / 10 ^ 9 else 0; e_nsec := if stamps c then cp_ns cp mod 10 ^ 9 else 0; e_incl := Z.of_nat (cp_len cp); e_orig := Z.of_nat (cp_len cp); e_iov := cp_len cp |}).
    set (m' := set_mem (mem st) (k_id k) (k_n k) e'). assert (Me : m' (k_id k) (k_n k) = e') by (unfold m', set_mem; now rewrite !Nat.eqb_refl).
    assert (Md : forall i j, e_data (m' i j) = e_data (mem st i j)) by (intros i j; unfold m', set_mem; destruct (Nat.eqb_spec i (k_id k)), (Nat.eqb_spec j (k_n k)); subst; reflexivity).
    pose proof (ids_nodup c st I) as Nd. unfold handles, hand in Nd. rewrite En in Nd.
    assert (Mo : forall k1, In k1 (ring st) \/ (exists i, coll st = CIov k1 i) -> forall s, m' (k_id k1) s = mem st (k_id k1) s).
    { intros k1 W s. assert (k_id k <> k_id k1). { eapply (ids_apart [k]); [exact Nd|now left|]. destruct W as [W|(i & W)]; [apply in_or_app; now left|]. apply in_or_app. right. apply in_or_app. left. unfold chand. rewrite W. now left. } unfold m', set_mem. destruct (Nat.eqb_spec (k_id k1) (k_id k)); [congruence|reflexivity]. }
    assert (Rem : 0 <= (if remaining st =? no_limit then remaining st else remaining st - 1)) by (destruct (j_rem c st I); destruct (Z.eqb_spec (remaining st) no_limit); lia).
    destruct I. constructor; cbn [net coll ring rstop free posted cq mem remaining packets bytes errors wr g_recvd g_last]; auto; try discriminate.
    + unfold handles, hand in *. cbn [net ring chand coll free] in *. rewrite En in j_ids0. exact j_ids0.
    + exists (pol ++ [x]), pnd'. split; [rewrite E1, <- app_assoc; reflexivity|]. split; [rewrite E2, zlen_app; reflexivity|]. split; [rewrite total_snoc, E3, M2; reflexivity|]. split.
      * clear - E4' Md. induction E4' as [|cp1 x1 l l' H _ IH]; constructor; [|exact IH]. eapply matches_ext; [|exact H]. apply Md.
      * rewrite flat_map_snoc, !app_assoc, <- (app_assoc (w_all (wr st))). rewrite <- E5, <- !app_assoc. do 2 f_equal. unfold tocome, hand. cbn [reading coll ring net mem]. rewrite En. cbn [flat_map]. rewrite !app_nil_r, <- !app_assoc. f_equal; [|f_equal].
        -- apply flat_ext. intros y Hy. apply pend_ext. intros s _. apply Mo. right. unfold reading in Hy. destruct (coll st); try destruct Hy as [<-|[]]; try destruct Hy. now exists i.
        -- apply flat_ext. intros y Hy. apply pend_ext. intros s _. apply Mo. now left.
        -- rewrite (pend_grow m' k (fst x)). ++ rewrite Me. f_equal; [apply pend_ext; intros s Hs; unfold m', set_mem; destruct (Nat.eqb_spec s (k_n k)); [lia|]; now rewrite andb_false_r|]. unfold record_header, rec_bytes, e'. cbn [e_sec e_nsec e_incl e_orig]. rewrite M2, M3, <- !app_assoc. reflexivity.
           ++ rewrite Me. unfold e'. cbn [e_iov e_data]. exact M4.
    + intros l0 Hl. congruence.
    + intros k1 e1 [X|X]; [|discriminate]. injection X as <- <-. cbn [k_n]. destruct (Z.eqb_spec (remaining st) no_limit); repeat split; try discriminate; lia.
    + split; [exact Rem|]. destruct j_rem0 as [_ J]. destruct (Z.eqb_spec (count c) no_limit); [rewrite J, Z.eqb_refl; reflexivity|]. destruct (Z.eqb_spec (remaining st) no_limit); [|lia]. pose proof (zlen_nonneg pol). lia.
    + rewrite j_rstop0, En. split; discriminate.
    + intros [X|X]; discriminate.
    + intros X. apply j_end0 in X as [X _]. congruence.
  - (* push *) destruct (Nat.ltb_spec (length (ring st)) (n_chunks c)) as [Lr|]; [|discriminate]. injection H as <-.
    assert (Nl : g_last st = None) by (destruct (g_last st) as [l|] eqn:El; [|reflexivity]; destruct (j_last c st I l El) as (X & _); unfold hand in X; rewrite En in X; discriminate).
    destruct (j_push c st I k En) as [Kf Kp]. pose proof (ids_nodup c st I) as Nd. unfold handles, hand in Nd. rewrite En in Nd.
    assert (Ap : forall k', In k' (ring st ++ chand st ++ free st) -> k_id k <> k_id k') by (intros; eapply (ids_apart [k]); [exact Nd|now left|assumption]).
    rewrite Nl. set (gl := if k_full k then None else Some k). assert (Gl : forall l, gl = Some l -> l = k /\ k_full k = false) by (unfold gl; intros l X; destruct (k_full k); [discriminate|split; [congruence|reflexivity]]).
    assert (Nt : forall k', In k' (chand st ++ free st) -> match gl with Some l => negb (k_id l =? k_id k')%nat | None => true end = true).
    { intros k' Hk'. destruct gl as [l|] eqn:Eg; [|reflexivity]. destruct (Gl l eq_refl) as [-> _]. apply negb_true_iff, Nat.eqb_neq, Ap. apply in_or_app. now right. }
    destruct I. constructor; cbn [net coll ring rstop free posted cq mem remaining packets bytes errors wr g_recvd g_last]; auto; try discriminate.
    + eapply perm_ids; [|exact j_ids0]. unfold handles, hand. cbn [net ring chand coll free]. rewrite En. cbn [app]. rewrite <- app_assoc. cbn [app]. apply Permutation_middle.
    + rewrite j_slots0. unfold owned, front, hand, cpost, notlast. cbn [net coll free g_last]. rewrite En, Nl. f_equal; [|f_equal].
      * unfold gl. rewrite Kf. destruct (Nat.eqb_spec (k_n k) (max_records c)); [apply slots_full; lia|reflexivity].
      * f_equal. assert (X : forall l, (forall k', In k' l -> In k' (free st)) -> filter (fun _ : handle => true) l = filter (fun k' => match gl with Some l => negb (k_id l =? k_id k')%nat | None => true end) l); [|now apply X]. induction l as [|a l IH]; intro Hs; [reflexivity|]. cbn [filter]. rewrite (Nt a) by (apply in_or_app; right; apply Hs; now left). f_equal. apply IH. intros; apply Hs; now right.
      * destruct (coll st) eqn:Ec; try reflexivity. rewrite (Nt k0); [reflexivity|]. apply in_or_app. left. unfold chand. rewrite Ec. now left.
    + destruct j_data0 as (pol & pnd & E1 & E2 & E3 & E4 & E5). exists pol, pnd. repeat split; auto. rewrite <- E5. do 2 f_equal. unfold tocome, hand, reading. cbn [net coll ring mem]. rewrite En. rewrite flat_map_app. cbn [flat_map]. now rewrite !app_nil_r.
    + intros k1 X. assert (k1 = k \/ (In k1 (ring st) \/ (exists i, coll st = CIov k1 i) \/ coll st = CPost k1)) as [->|X'] by (destruct X as [X|X]; [apply in_app_or in X as [X|[X|[]]]; auto|auto]).
      * unfold gl. destruct (k_full k); [apply Nat.eqb_eq; congruence|reflexivity].
      * specialize (j_full0 k1 X'). destruct (k_full k1); [exact j_full0|congruence].
    + intros k1 X Y. apply j_free0; [exact X|]. unfold notlast. now rewrite Nl.
    + intros l Hl. destruct (Gl l Hl) as [-> Kff]. split; [reflexivity|]. split; [discriminate|]. split; [|apply in_or_app; left; apply in_or_app; right; now left]. destruct Kp as [Kp|[Kp|Kp]]; [now left|now right|]. rewrite Kp, Nat.eqb_refl in Kf. congruence.
    + intros k1 e1 [X|X]; discriminate.
    + rewrite j_rstop0, En. split; discriminate.
    + intros [X|X]; discriminate.
    + intros X. apply j_end0 in X as [X _]. congruence.
    + intros l Hl. now destruct (Gl l Hl) as [-> X].
  - (* stop *) injection H as <-. destruct I. constructor; cbn [net coll ring rstop free posted cq mem remaining packets bytes errors wr g_recvd g_last]; auto; try discriminate.
    + unfold handles, hand in *. cbn [net ring chand coll free] in *. rewrite En in j_ids0. exact j_ids0.
    + rewrite j_slots0. unfold owned, front, hand. cbn [net]. rewrite En. reflexivity.
    + destruct j_data0 as (pol & pnd & E1 & E2 & E3 & E4 & E5). exists pol, pnd. repeat split; auto. rewrite <- E5. unfold tocome, hand. cbn [net]. rewrite En. reflexivity.
    + intros l Hl. destruct (j_last0 l Hl) as (_ & _ & X). split; [reflexivity|]. split; [discriminate|exact X].
    + intros k1 e1 [X|X]; discriminate.
    + split; reflexivity.
    + intros X. apply j_end0 in X as [X _]. congruence.
Qed.

(** *** The collector and the disk threads *)
Lemma dinv_wr c st w' : dinv c st -> winv (d_w c) w' -> w_all w' = w_all (wr st) -> (w_stop (wr st) = true -> w_stop w' = true) -> (coll st <> COver -> early (w_pc w')) -> (endpc (wr st) -> endpc w') -> dinv c (set_coll st (coll st) w').
Proof.
  intros I W A S' E P. destruct I. constructor; unfold set_coll; cbn [net coll ring rstop free posted cq mem remaining packets bytes errors wr g_recvd g_last]; auto.
  - rewrite A. exact j_data0.
  - intros k H. destruct (j_push0 k H) as [H1 H2]. split; [exact H1|tauto].
  - intros l H. destruct (j_last0 l H) as (H1 & H2 & H3 & H4). repeat split; auto. tauto.
  - intros H. apply j_ended0 in H. tauto.
Qed.
Lemma wstep_frame c w w' : wstep c w = Some w' -> w_all w' = w_all w /\ (w_stop w = true -> w_stop w' = true) /\ (early (w_pc w) -> early (w_pc w')) /\ (endpc w -> endpc w').
Proof.
  intro H. unfold endpc. unfold wstep in H. destruct (w_pc w) as [|data|data cl|data cl| |i| | | |] eqn:Ep; try discriminate.
  - destruct (w_cur w) as [b|]; [|discriminate]. destruct data as [|z data]; [injection H as <-; cbn; auto|]. destruct (copy_in (bufsize c) b (z :: data)) as [b' rest]. injection H as <-. cbn [w_all w_stop w_pc]. split; [reflexivity|]. split; [auto|]. split; [|intros []]. destruct (b_len b' =? bufsize c)%nat; auto.
  - destruct (w_cur w) as [b|]; [|discriminate]. destruct (length (w_ring w) <? depth c)%nat; [|discriminate]. injection H as <-. cbn. destruct cl; intuition.
  - destruct (w_cur w); [discriminate|]. destruct (w_free w); [discriminate|]. injection H as <-. cbn [w_all w_stop w_pc]. destruct cl; cbn; intuition.
  - injection H as <-. cbn. auto.
  - destruct (nth_error (w_disks w) i) as [[]|] eqn:Ei; try discriminate; injection H as <-; cbn; intuition. now exists i.
  - injection H as <-. cbn. auto.
  - injection H as <-. cbn. auto.
Qed.
Lemma dstep_frame c w i a w' : dstep c w i a = Some w' -> w_all w' = w_all w /\ (w_stop w = true -> w_stop w' = true) /\ w_pc w' = w_pc w /\ (endpc w -> endpc w').
Proof.
  intro H. assert (Fw : (forall j, nth_error (w_disks w) j = Some DFailed -> nth_error (w_disks w') j = Some DFailed) -> w_pc w' = w_pc w -> endpc w -> endpc w'). { unfold endpc. intros F ->. destruct (w_pc w); auto; intros (j & Hj); exists j; auto. }
  assert (Fu : forall d j, nth_error (w_disks w) i <> Some DFailed -> nth_error (w_disks w) j = Some DFailed -> nth_error (upd (w_disks w) i d) j = Some DFailed) by (intros d j Hi Hj; rewrite upd_other; [exact Hj|congruence]). unfold dstep in H. destruct (nth_error (w_disks w) i) as [[]|]; try discriminate; destruct a; try discriminate.
  - destruct (w_ring w); [discriminate|]. injection H as <-. cbn [set_disk raise_stop w_all w_stop w_pc w_disks] in *. split; [reflexivity|]. split; [auto|]. split; [reflexivity|]. apply Fw; [|reflexivity]. intros x Hx. apply Fu; [discriminate|exact Hx].
  - destruct (w_ring w); [|discriminate]. destruct (w_rstop w); [|discriminate]. injection H as <-. cbn [set_disk raise_stop w_all w_stop w_pc w_disks] in *. split; [reflexivity|]. split; [auto|]. split; [reflexivity|]. apply Fw; [|reflexivity]. intros x Hx. apply Fu; [discriminate|exact Hx].
  - destruct (_ <=? _)%nat; [|discriminate]. injection H as <-. cbn [set_disk raise_stop w_all w_stop w_pc w_disks] in *. split; [reflexivity|]. split; [auto|]. split; [reflexivity|]. apply Fw; [|reflexivity]. intros x Hx. apply Fu; [discriminate|exact Hx].
  - injection H as <-. auto.
  - injection H as <-. cbn [set_disk raise_stop w_all w_stop w_pc w_disks] in *. split; [reflexivity|]. split; [auto|]. split; [reflexivity|]. apply Fw; [|reflexivity]. intros x Hx. apply Fu; [discriminate|exact Hx].
  - destruct (_ <? _)%nat; [|discriminate]. injection H as <-. cbn [set_disk raise_stop w_all w_stop w_pc w_disks] in *. split; [reflexivity|]. split; [auto|]. split; [reflexivity|]. apply Fw; [|reflexivity]. intros x Hx. apply Fu; [discriminate|exact Hx].
Qed.
Lemma pend_step m k i : (i < 2 * k_n k)%nat -> pend m k i = iov m (k_id k) i ++ pend m k (S i).
Proof. intro H. unfold pend. replace (2 * k_n k - i)%nat with (S (2 * k_n k - S i)) by lia. reflexivity. Qed.
Lemma pend_nil m k i : (2 * k_n k <= i)%nat -> pend m k i = [].
Proof. intro H. unfold pend. now replace (2 * k_n k - i)%nat with 0%nat by lia. Qed.

Lemma dinv_coll c st st' : dconf_ok c -> dinv c st -> coll_step c st = Some st' -> dinv c st'.
Proof.
  intros C I H. pose proof C as (Wc & _ & _ & _ & _ & _). unfold coll_step in H. destruct (w_pc (wr st)) eqn:Ep.
  2-10: destruct (wstep (d_w c) (wr st)) as [w'|] eqn:Ew; [|discriminate]; injection H as <-; destruct (wstep_frame _ _ _ Ew) as (F1 & F2 & F3 & F4); apply dinv_wr; auto; [destruct Wc as (? & ? & ?); eapply winv_step; eauto using j_w|intro N; apply F3, (j_early c st I N)].
  destruct (coll st) as [| |k i|k|k| |] eqn:Ec; try discriminate.
  - (* header *) destruct (wcall (wr st) (file_header c)) as [w'|] eqn:Ew; [|discriminate]. injection H as <-. pose proof (winv_call _ _ _ _ (j_w c st I) Ew) as W. unfold wcall in Ew. rewrite Ep in Ew. injection Ew as <-.
    destruct I. constructor; unfold set_coll; cbn [net coll ring rstop free posted cq mem remaining packets bytes errors wr g_recvd g_last w_all w_stop]; auto; try discriminate.
    + unfold handles, chand in *. cbn [net ring coll free]. rewrite Ec in j_ids0. exact j_ids0.
    + rewrite j_slots0. unfold owned, cpost. cbn [coll]. rewrite Ec. reflexivity.
    + destruct j_data0 as (pol & pnd & E1 & E2 & E3 & E4 & E5). exists pol, pnd. repeat split; auto. rewrite Ec in E5. rewrite <- E5, <- app_assoc. unfold tocome, reading. cbn [coll]. rewrite Ec. reflexivity.
    + intros k [X|[(i & X)|X]]; try discriminate. apply j_full0. now left.
    + intros k [X|X]; [|discriminate]. apply j_free0. now left.
    + intros l Hl. destruct (j_last0 l Hl) as (H1 & H2 & H3 & H4). repeat split; auto. unfold chand in *. cbn [coll]. rewrite Ec in H4. exact H4.
    + intros [X|X]; discriminate.
    + intros _. exact Logic.I.
  - (* next chunk *) destruct (ring st) as [|k r] eqn:Er.
    + destruct (rstop st) eqn:Es; [|discriminate]. injection H as <-. destruct I. constructor; unfold set_coll; cbn [net coll ring rstop free posted cq mem remaining packets bytes errors wr g_recvd g_last w_all w_stop]; auto; try discriminate.
      * unfold handles, chand in *. cbn [net ring coll free]. rewrite Ec in j_ids0. exact j_ids0.
      * rewrite j_slots0. unfold owned, cpost. cbn [coll]. rewrite Ec. reflexivity.
      * destruct j_data0 as (pol & pnd & E1 & E2 & E3 & E4 & E5). exists pol, pnd. repeat split; auto. rewrite Ec in E5. rewrite <- E5. unfold tocome, reading. cbn [coll]. rewrite Ec. reflexivity.
      * intros k [X|[(i & X)|X]]; try discriminate. apply j_full0. now left.
      * intros k [X|X]; [|discriminate]. apply j_free0. now left.
      * intros l Hl. destruct (j_last0 l Hl) as (H1 & H2 & H3 & H4). repeat split; auto. unfold chand in *. cbn [coll]. rewrite Ec in H4. exact H4.
      * intros _. split; [now apply j_rstop0|exact Er].
      * intros _. rewrite Ep. exact Logic.I.
    + injection H as <-. destruct I. constructor; cbn [net coll ring rstop free posted cq mem remaining packets bytes errors wr g_recvd g_last w_all w_stop]; auto; try discriminate.
      * eapply perm_ids; [|exact j_ids0]. unfold handles, chand, hand. cbn [net ring coll free]. rewrite Ec, Er. apply Permutation_app_head. cbn [app]. apply Permutation_middle.
      * rewrite j_slots0. unfold owned, cpost. cbn [coll]. rewrite Ec. reflexivity.
      * destruct j_data0 as (pol & pnd & E1 & E2 & E3 & E4 & E5). exists pol, pnd. repeat split; auto. rewrite Ec in E5. rewrite <- E5. unfold tocome, reading, hand. cbn [coll ring mem net]. rewrite Ec, Er. cbn [flat_map fst snd app]. rewrite app_nil_r, <- !app_assoc. reflexivity.
      * intros k1 X. apply j_full0. left. rewrite Er. destruct X as [X|[(i & X)|X]]; [now right| |discriminate]. injection X as <- <-. now left.
      * intros k1 [X|X]; [|discriminate]. apply j_free0. now left.
      * intros l Hl. destruct (j_last0 l Hl) as (H1 & H2 & H3 & H4). repeat split; auto. unfold chand in *. cbn [coll]. rewrite Ec, Er in H4. rewrite in_app_iff in *. cbn [app In] in *. tauto.
      * intros [X|X]; discriminate.
      * intros _. rewrite Ep. exact Logic.I.
  - (* iovecs *) destruct (Nat.ltb_spec i (2 * k_n k)) as [Li|Li].
    + destruct (wcall (wr st) (iov (mem st) (k_id k) i)) as [w'|] eqn:Ew; [|discriminate]. injection H as <-. pose proof (winv_call _ _ _ _ (j_w c st I) Ew) as W. unfold wcall in Ew. rewrite Ep in Ew. injection Ew as <-.
      destruct I. constructor; unfold set_coll; cbn [net coll ring rstop free posted cq mem remaining packets bytes errors wr g_recvd g_last w_all w_stop]; auto; try discriminate.
      * unfold handles, chand in *. cbn [net ring coll free]. rewrite Ec in j_ids0. exact j_ids0.
      * rewrite j_slots0. unfold owned, cpost. cbn [coll]. rewrite Ec. reflexivity.
      * destruct j_data0 as (pol & pnd & E1 & E2 & E3 & E4 & E5). exists pol, pnd. repeat split; auto. rewrite Ec in E5. rewrite <- E5. unfold tocome, reading, hand. cbn [coll ring mem net]. rewrite Ec. cbn [flat_map fst snd app]. rewrite (pend_step _ _ _ Li), !app_nil_r, <- !app_assoc. reflexivity.
      * intros k1 X. apply j_full0. destruct X as [X|[(j & X)|X]]; [now left| |discriminate]. injection X as <- <-. right. left. now exists i.
      * intros k1 [X|X]; [|discriminate]. apply j_free0. now left.
      * intros l Hl. destruct (j_last0 l Hl) as (H1 & H2 & H3 & H4). repeat split; auto. unfold chand in *. cbn [coll]. rewrite Ec in H4. exact H4.
      * intros [X|X]; discriminate.
      * intros _. exact Logic.I.
    + injection H as <-. destruct I. constructor; unfold set_coll; cbn [net coll ring rstop free posted cq mem remaining packets bytes errors wr g_recvd g_last w_all w_stop]; auto; try discriminate.
      * unfold handles, chand in *. cbn [net ring coll free]. rewrite Ec in j_ids0. exact j_ids0.
      * rewrite j_slots0. unfold owned, cpost. cbn [coll]. rewrite Ec. reflexivity.
      * destruct j_data0 as (pol & pnd & E1 & E2 & E3 & E4 & E5). exists pol, pnd. repeat split; auto. rewrite Ec in E5. rewrite <- E5. unfold tocome, reading, hand. cbn [coll ring mem net]. rewrite Ec. cbn [flat_map fst snd app]. rewrite (pend_nil _ _ _ Li). reflexivity.
      * intros k1 X. apply j_full0. destruct X as [X|[(j & X)|X]]; [now left|discriminate|]. injection X as <-. right. left. now exists i.
      * intros k1 [X|X]; [|discriminate]. apply j_free0. now left.
      * intros l Hl. destruct (j_last0 l Hl) as (H1 & H2 & H3 & H4). repeat split; auto. unfold chand in *. cbn [coll]. rewrite Ec in H4. exact H4.
      * intros [X|X]; discriminate.
      * intros _. rewrite Ep. exact Logic.I.
  - (* chunk_done *) pose proof (j_full c st I k (or_intror (or_intror Ec))) as Kf. destruct (k_full k) eqn:Ek.
    + injection H as <-. assert (Nl : notlast st k = true).
      { unfold notlast. destruct (g_last st) as [l|] eqn:El; [|reflexivity]. apply negb_true_iff, Nat.eqb_neq. intro E. destruct (j_last c st I l El) as (_ & _ & _ & Il). assert (l = k) as ->. { eapply ids_inj; [exact (ids_nodup c st I)| | |exact E]; unfold handles; apply in_or_app; right; [exact Il|]. rewrite !in_app_iff. right. left. unfold chand. rewrite Ec. now left. } pose proof (j_lfull c st I k El). congruence. }
      destruct I. constructor; cbn [net coll ring rstop free posted cq mem remaining packets bytes errors wr g_recvd g_last w_all w_stop]; auto; try discriminate.
      * unfold handles, chand, hand in *. cbn [net ring coll free]. rewrite Ec in j_ids0. rewrite !map_app in *. exact j_ids0.
      * rewrite app_assoc, j_slots0. unfold owned, cpost. cbn [coll k_id]. rewrite Ec. unfold front, hand, notlast in *. cbn [net g_last free k_id]. rewrite Nl. rewrite app_nil_r, <- app_assoc. reflexivity.
      * destruct j_data0 as (pol & pnd & E1 & E2 & E3 & E4 & E5). exists pol, pnd. repeat split; auto. rewrite Ec in E5. rewrite <- E5. unfold tocome, reading, hand. cbn [coll ring mem net]. rewrite Ec. reflexivity.
      * intros k1 X. apply j_full0. destruct X as [X|[(j & X)|X]]; [now left|discriminate|discriminate].
      * intros k1 [X|X]; [apply j_free0; now left|]. injection X as <-. reflexivity.
      * intros l Hl. destruct (j_last0 l Hl) as (H1 & H2 & H3 & H4). repeat split; auto. unfold chand in *. cbn [coll]. rewrite Ec in H4. rewrite !in_app_iff in *. destruct H4 as [H4|[[H4|[]]|H4]]; auto. subst l. unfold notlast in Nl. rewrite Hl, Nat.eqb_refl in Nl. discriminate.
      * intros [X|X]; discriminate.
      * intros _. rewrite Ep. exact Logic.I.
    + injection H as <-. assert (Nl : notlast st k = false) by (unfold notlast; rewrite Kf, Nat.eqb_refl; reflexivity).
      destruct I. constructor; unfold set_coll; cbn [net coll ring rstop free posted cq mem remaining packets bytes errors wr g_recvd g_last w_all w_stop]; auto; try discriminate.
      * unfold handles, chand in *. cbn [net ring coll free]. rewrite Ec in j_ids0. exact j_ids0.
      * rewrite j_slots0. unfold owned, cpost. cbn [coll k_id]. rewrite Ec. unfold front, hand, notlast in *. cbn [net g_last free k_id]. rewrite Nl. reflexivity.
      * destruct j_data0 as (pol & pnd & E1 & E2 & E3 & E4 & E5). exists pol, pnd. repeat split; auto. rewrite Ec in E5. rewrite <- E5. unfold tocome, reading, hand. cbn [coll ring mem net]. rewrite Ec. reflexivity.
      * intros k1 X. apply j_full0. destruct X as [X|[(j & X)|X]]; [now left|discriminate|discriminate].
      * intros k1 [X|X]; [apply j_free0; now left|]. injection X as <-. unfold notlast in *. cbn [g_last]. congruence.
      * intros l Hl. destruct (j_last0 l Hl) as (H1 & H2 & H3 & H4). repeat split; auto. unfold chand in *. cbn [coll]. rewrite Ec in H4. exact H4.
      * intros [X|X]; discriminate.
      * intros _. rewrite Ep. exact Logic.I.
  - (* back into the free ring *) destruct (Nat.ltb_spec (length (free st)) (n_chunks c)) as [Lf|]; [|discriminate]. injection H as <-.
    destruct I. constructor; cbn [net coll ring rstop free posted cq mem remaining packets bytes errors wr g_recvd g_last w_all w_stop]; auto; try discriminate.
    + eapply perm_ids; [|exact j_ids0]. unfold handles, chand, hand. cbn [net ring coll free]. rewrite Ec. apply Permutation_app_head, Permutation_app_head. cbn [app]. apply Permutation_cons_append.
    + rewrite j_slots0. unfold owned, cpost, front, hand, notlast. cbn [coll net g_last free]. rewrite Ec. rewrite filter_app, flat_map_app. cbn [filter]. destruct (match g_last st with Some l => negb (k_id l =? k_id k)%nat | None => true end); cbn [flat_map]; rewrite ?app_nil_r; reflexivity.
    + destruct j_data0 as (pol & pnd & E1 & E2 & E3 & E4 & E5). exists pol, pnd. repeat split; auto. rewrite Ec in E5. rewrite <- E5. unfold tocome, reading, hand. cbn [coll ring mem net]. rewrite Ec. reflexivity.
    + intros k1 X. apply j_full0. destruct X as [X|[(j & X)|X]]; [now left|discriminate|discriminate].
    + intros k1 [X|X]; [|discriminate]. apply in_app_or in X as [X|[<-|[]]]; apply j_free0; auto.
    + intros l Hl. destruct (j_last0 l Hl) as (H1 & H2 & H3 & H4). repeat split; auto. unfold chand in *. cbn [coll]. rewrite Ec in H4. rewrite !in_app_iff in *. cbn [In] in *. tauto.
    + intros [X|X]; discriminate.
    + intros _. rewrite Ep. exact Logic.I.
  - (* close *) destruct (wclose (wr st)) as [w'|] eqn:Ew; [|discriminate]. injection H as <-. pose proof (winv_close _ _ _ (j_w c st I) Ew) as W. unfold wclose in Ew. rewrite Ep in Ew. destruct (w_cur (wr st)) as [b|]; [|discriminate]. injection Ew as <-.
    destruct I. constructor; unfold set_coll; cbn [net coll ring rstop free posted cq mem remaining packets bytes errors wr g_recvd g_last set_pc w_all w_stop]; auto; try discriminate.
    + unfold handles, chand in *. cbn [net ring coll free]. rewrite Ec in j_ids0. exact j_ids0.
    + rewrite j_slots0. unfold owned, cpost. cbn [coll]. rewrite Ec. reflexivity.
    + destruct j_data0 as (pol & pnd & E1 & E2 & E3 & E4 & E5). exists pol, pnd. repeat split; auto. rewrite Ec in E5. rewrite <- E5. unfold tocome, reading, hand. cbn [coll ring mem net]. rewrite Ec. reflexivity.
    + intros k1 X. apply j_full0. destruct X as [X|[(j & X)|X]]; [now left|discriminate|discriminate].
    + intros k1 [X|X]; [|discriminate]. apply j_free0. now left.
    + intros l Hl. destruct (j_last0 l Hl) as (H1 & H2 & H3 & H4). repeat split; auto. unfold chand in *. cbn [coll]. rewrite Ec in H4. exact H4.
    + intros _. unfold endpc. cbn [w_pc]. destruct (0 <? b_len b)%nat; exact Logic.I.
    + intros N. congruence.
Qed.

Lemma dinv_label c st l st' : dconf_ok c -> dinv c st -> label_ok l -> dlstep c st l = Some st' -> dinv c st'.
Proof.
  intros C I L H. destruct l as [pkt ns| | |got| |i a]; cbn [dlstep] in H.
  - eapply dinv_recv; eauto.
  - destruct L.
  - injection H as <-. apply dinv_wr; auto using raise_inv, (j_w c st I). exact (j_early c st I).
  - eapply dinv_net; eauto.
  - eapply dinv_coll; eauto.
  - destruct (dstep (d_w c) (wr st) i a) as [w'|] eqn:E; [|discriminate]. injection H as <-. destruct (dstep_frame _ _ _ _ _ E) as (F1 & F2 & F3 & F4). apply dinv_wr; auto; [|rewrite F3; exact (j_early c st I)]. destruct C as ((? & ? & ?) & _). eapply winv_disk; eauto using j_w.
Qed.
Lemma recvd_label c st l st' : dlstep c st l = Some st' -> g_recvd st' = g_recvd st ++ received [l].
Proof.
  intro H. destruct l as [pkt ns| | |got| |i a]; cbn [dlstep received flat_map app] in *; rewrite ?app_nil_r.
  - unfold hw_recv in H. destruct (posted st) as [|[id s] p]; [discriminate|]. destruct (zlen pkt <=? snaplen c); [|discriminate]. now injection H as <-.
  - unfold hw_fail in H. destruct (posted st) as [|[id s] p]; [discriminate|]. now injection H as <-.
  - now injection H as <-.
  - unfold net_step in H. destruct (net st) as [| |k e|k e|k| |]; try discriminate; try now injection H as <-.
    + destruct (free st); [discriminate|]. now injection H as <-.
    + destruct got; [|now injection H as <-]. destruct (cq st) as [|cp q]; [discriminate|]. destruct (cp_ok cp); now injection H as <-.
    + destruct (_ <? _)%nat; [|discriminate]. now injection H as <-.
  - unfold coll_step in H. destruct (w_pc (wr st)); try (destruct (wstep (d_w c) (wr st)); [|discriminate]; now injection H as <-). destruct (coll st) as [| |k i|k|k| |]; try discriminate.
    + destruct (wcall _ _); [|discriminate]. now injection H as <-.
    + destruct (ring st); [destruct (rstop st); [|discriminate]|]; now injection H as <-.
    + destruct (_ <? _)%nat; [destruct (wcall _ _); [|discriminate]|]; now injection H as <-.
    + destruct (k_full k); now injection H as <-.
    + destruct (_ <? _)%nat; [|discriminate]. now injection H as <-.
    + destruct (wclose _); [|discriminate]. now injection H as <-.
  - destruct (dstep _ _ _ _); [|discriminate]. now injection H as <-.
Qed.
Lemma drun_app c st l1 l2 : drun c st (l1 ++ l2) = match drun c st l1 with Some st' => drun c st' l2 | None => None end.
Proof. revert st. induction l1 as [|l l1 IH]; intro st; [reflexivity|]. cbn [app drun]. destruct (dlstep c st l); auto. Qed.
Lemma dinv_run c m wm ls st : dconf_ok c -> Forall label_ok ls -> drun c (dinit c m wm) ls = Some st -> dinv c st /\ g_recvd st = received ls.
Proof.
  intro C. revert st. induction ls as [|l ls IH] using rev_ind; intros st L H.
  - injection H as <-. split; [now apply dinv_init|reflexivity].
  - rewrite drun_app in H. destruct (drun c (dinit c m wm) ls) as [st1|] eqn:E; [|discriminate]. apply Forall_app in L as [L1 L2]. inversion_clear L2. destruct (IH st1 L1 eq_refl) as [I R]. cbn [drun] in H. destruct (dlstep c st1 l) as [st2|] eqn:E2; [|discriminate]. injection H as <-. split; [eapply dinv_label; eauto|]. rewrite (recvd_label _ _ _ _ E2), R. unfold received. now rewrite flat_map_app.
Qed.
