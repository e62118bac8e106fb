(** C22: merging of statistics. *)
From Coq Require Import ZArith Lia Bool String List Permutation.
From Coq Require Import ZifyBool ZifyNat.
From Verif Require Import Base StatsModel.
Import ListNotations.
Open Scope Z_scope.

(** * Spec *)
(** Configurations a user can make: the default ones and add_stat calls. *)
Inductive user_config : list stat_config -> Prop :=
| UC_default : user_config default_stats
| UC_add c n m c' i : user_config c -> add_stat c n m = Some (c', i) -> user_config c'.
(** A stream_stats object (the assert in its constructor). *)
Definition stats_ok (s : stats) : Prop :=
  length (sv_values s) = length (sv_config s) /\ Forall (fun v => 0 <= v < 2 ^ 64) (sv_values s).
(** Any way of merging several objects. *)
Inductive tree := Leaf (s : stats) | Node (l r : tree).
Fixpoint leaves (t : tree) : list stats := match t with Leaf s => [s] | Node l r => leaves l ++ leaves r end.
Fixpoint merged (t : tree) : option stats :=
  match t with
  | Leaf s => Some s
  | Node l r => match merged l, merged r with Some a, Some b => stats_add a b | _, _ => None end
  end.
(** The total of a list of samples. *)
Definition total (m : stat_mode) (l : list Z) : Z :=
  match m with
  | Counter => fold_right Z.add 0 l mod 2 ^ 64
  | Maximum => fold_right Z.max 0 l
  end.
Fixpoint samples (n : string) (l : list stats) : option (list Z) :=
  match l with
  | [] => Some []
  | s :: l' => match stats_at s n, samples n l' with Some v, Some r => Some (v :: r) | _, _ => None end
  end.

(** * Proofs *)
Lemma stat_config_eqb_eq a b : stat_config_eqb a b = true <-> a = b.
Proof.
  destruct a as [n m], b as [n' m']. unfold stat_config_eqb. cbn [sg_name sg_mode]. rewrite andb_true_iff, String.eqb_eq.
  split; [intros [-> H]; destruct m, m'; try discriminate; reflexivity|intro E; injection E as -> ->; split; [reflexivity|now destruct m']].
Qed.
Lemma configs_eqb_eq a : forall b, configs_eqb a b = true <-> a = b.
Proof.
  induction a as [|x a IH]; intros [|y b]; cbn [configs_eqb]; try (split; congruence).
  rewrite andb_true_iff, stat_config_eqb_eq, IH. split; [intros [-> ->]; reflexivity|intro E; injection E as -> ->; auto].
Qed.

Lemma merge_length c : forall a b, length a = length c -> length b = length c -> length (merge_values c a b) = length c.
Proof.
  induction c as [|x c IH]; intros [|y a] [|z b] Ha Hb; try discriminate; [reflexivity|]. cbn [merge_values length] in *. rewrite IH; lia.
Qed.
Lemma combine_range c a b : 0 <= a < 2 ^ 64 -> 0 <= b < 2 ^ 64 -> 0 <= combine c a b < 2 ^ 64.
Proof. intros Ha Hb. unfold combine. destruct (sg_mode c); [apply Z.mod_pos_bound; lia|lia]. Qed.
Lemma merge_range c : forall a b, Forall (fun v => 0 <= v < 2 ^ 64) a -> Forall (fun v => 0 <= v < 2 ^ 64) b ->
  Forall (fun v => 0 <= v < 2 ^ 64) (merge_values c a b).
Proof.
  induction c as [|x c IH]; intros [|y a] [|z b] Ha Hb; cbn [merge_values]; try constructor.
  - inversion Ha; inversion Hb; subst. now apply combine_range.
  - inversion Ha; inversion Hb; subst. now apply IH.
Qed.
Lemma merge_nth c : forall a b i v w k, nth_error c i = Some k -> nth_error a i = Some v -> nth_error b i = Some w ->
  length a = length c -> length b = length c -> nth_error (merge_values c a b) i = Some (combine k v w).
Proof.
  induction c as [|x c IH]; intros [|y a] [|z b] [|i] v w k Hk Hv Hw Ha Hb; try discriminate; cbn [merge_values nth_error length] in *.
  - congruence.
  - apply IH; auto; lia.
Qed.

Lemma add_ok a b : stats_ok a -> stats_ok b -> sv_config a = sv_config b ->
  exists s, stats_add a b = Some s /\ stats_ok s /\ sv_config s = sv_config a.
Proof.
  intros [A1 A2] [B1 B2] E. unfold stats_add. rewrite (proj2 (configs_eqb_eq _ _) E).
  eexists. split; [reflexivity|]. split; [|reflexivity]. split; cbn [sv_config sv_values].
  - apply merge_length; [exact A1|now rewrite B1, E].
  - now apply merge_range.
Qed.

Lemma index_lt c n : (get_stat_index_nothrow c n <= length c)%nat.
Proof. induction c as [|x c IH]; cbn [get_stat_index_nothrow length]; [lia|]. destruct (String.eqb _ _); lia. Qed.
Lemma index_some c n i : get_stat_index c n = Some i -> exists k, nth_error c i = Some k /\ sg_name k = n.
Proof.
  unfold get_stat_index. destruct (Nat.eqb_spec (get_stat_index_nothrow c n) (length c)) as [E|E]; [discriminate|]. intro H. injection H as <-.
  induction c as [|x c IH]; cbn [get_stat_index_nothrow length] in *; [congruence|].
  destruct (String.eqb_spec (sg_name x) n) as [En|En]; [exists x; auto|]. cbn [nth_error]. apply IH. lia.
Qed.
Lemma at_some s n : stats_ok s -> (exists v, stats_at s n = Some v /\ 0 <= v < 2 ^ 64) \/ (stats_at s n = None /\ get_stat_index (sv_config s) n = None).
Proof.
  intros [H1 H2]. unfold stats_at. destruct (get_stat_index (sv_config s) n) as [i|] eqn:E; [left|now right].
  destruct (index_some _ _ _ E) as (k & Hk & _). destruct (nth_error (sv_values s) i) as [v|] eqn:Ev.
  - exists v. split; [reflexivity|]. rewrite Forall_forall in H2. apply H2. eapply nth_error_In. exact Ev.
  - apply nth_error_None in Ev. assert (i < length (sv_config s))%nat by (apply nth_error_Some; congruence). lia.
Qed.

Definition mode_of (c : list stat_config) (n : string) : stat_mode :=
  match get_stat_index c n with
  | Some i => match nth_error c i with Some k => sg_mode k | None => Counter end
  | None => Counter
  end.

Lemma add_at a b s n v w : stats_ok a -> stats_ok b -> stats_add a b = Some s -> stats_at a n = Some v -> stats_at b n = Some w ->
  stats_at s n = Some (match mode_of (sv_config a) n with Counter => (v + w) mod 2 ^ 64 | Maximum => Z.max v w end).
Proof.
  intros [A1 A2] [B1 B2] HA Ha Hb. unfold stats_add in HA. destruct (configs_eqb _ _) eqn:E; [|discriminate]. injection HA as <-.
  apply configs_eqb_eq in E. unfold stats_at, mode_of in *. cbn [sv_config sv_values] in *. rewrite <- E in Hb, B1.
  destruct (get_stat_index (sv_config a) n) as [i|] eqn:Ei; [|discriminate]. destruct (index_some _ _ _ Ei) as (k & Hk & _).
  rewrite Hk. rewrite (merge_nth _ _ _ i v w k Hk Ha Hb A1 B1). reflexivity.
Qed.

Lemma total_app m l r : Forall (fun v => 0 <= v < 2 ^ 64) l -> Forall (fun v => 0 <= v < 2 ^ 64) r ->
  total m (l ++ r) = match m with Counter => (total m l + total m r) mod 2 ^ 64 | Maximum => Z.max (total m l) (total m r) end.
Proof.
  intros Hl Hr. destruct m; cbn [total].
  - rewrite <- Zplus_mod. f_equal. induction l as [|x l IH]; cbn [app fold_right]; [reflexivity|]. inversion Hl; subst. rewrite IH by assumption. lia.
  - induction l as [|x l IH]; cbn [app fold_right].
    + assert (0 <= fold_right Z.max 0 r) by (clear; induction r; cbn [fold_right]; lia). lia.
    + inversion Hl; subst. rewrite IH by assumption. lia.
Qed.
Lemma total_one m v : 0 <= v < 2 ^ 64 -> total m [v] = v.
Proof. intro H. destruct m; cbn [total fold_right]; [rewrite Z.add_0_r; now apply Z.mod_small|lia]. Qed.
Lemma total_perm m l l' : Permutation l l' -> total m l = total m l'.
Proof.
  intro H. destruct m; cbn [total]; [f_equal|]; induction H; cbn [fold_right]; lia.
Qed.

Lemma samples_app n l r : samples n (l ++ r) = match samples n l, samples n r with Some a, Some b => Some (a ++ b) | _, _ => None end.
Proof.
  induction l as [|x l IH]; cbn [app samples]; [now destruct (samples n r)|]. destruct (stats_at x n); [|reflexivity]. rewrite IH.
  destruct (samples n l), (samples n r); reflexivity.
Qed.
Lemma samples_range n l a : Forall stats_ok l -> samples n l = Some a -> Forall (fun v => 0 <= v < 2 ^ 64) a.
Proof.
  revert a. induction l as [|x l IH]; intros a HF H; cbn [samples] in H; [injection H as <-; constructor|]. inversion HF as [|? ? Hx HF']; subst.
  destruct (at_some x n Hx) as [(v & Hv & Hr)|[Hv _]]; rewrite Hv in H; [|discriminate]. destruct (samples n l) as [r|]; [|discriminate]. injection H as <-.
  constructor; [exact Hr|now apply IH].
Qed.

Lemma merged_ok c t : (forall s, In s (leaves t) -> stats_ok s /\ sv_config s = c) ->
  exists s, merged t = Some s /\ stats_ok s /\ sv_config s = c /\
    forall n vs, samples n (leaves t) = Some vs -> vs <> [] /\ stats_at s n = Some (total (mode_of c n) vs).
Proof.
  induction t as [s|l IHl r IHr]; intro H; cbn [leaves merged] in *.
  - destruct (H s (or_introl eq_refl)) as [H1 H2]. exists s. split; [reflexivity|]. split; [exact H1|]. split; [exact H2|].
    intros n vs Hv. cbn [samples] in Hv. destruct (at_some s n H1) as [(v & Ev & Hr)|[Ev _]]; rewrite Ev in Hv; [|discriminate].
    injection Hv as <-. split; [discriminate|]. now rewrite total_one.
  - destruct IHl as (a & Ea & Ha & Ca & Va). { intros s Hs. apply H, in_or_app. now left. }
    destruct IHr as (b & Eb & Hb & Cb & Vb). { intros s Hs. apply H, in_or_app. now right. }
    rewrite Ea, Eb. destruct (add_ok a b Ha Hb (eq_trans Ca (eq_sym Cb))) as (s & Es & Hs & Cs).
    exists s. split; [exact Es|]. split; [exact Hs|]. split; [congruence|]. intros n vs Hv. rewrite samples_app in Hv.
    destruct (samples n (leaves l)) as [la|] eqn:El; [|discriminate]. destruct (samples n (leaves r)) as [lb|] eqn:Er; [|discriminate]. injection Hv as <-.
    destruct (Va n la El) as [N1 V1]. destruct (Vb n lb Er) as [_ V2]. split; [destruct la; [contradiction|discriminate]|].
    rewrite (add_at a b s n _ _ Ha Hb Es V1 V2), Ca. f_equal. symmetry. apply total_app.
    + apply (samples_range n (leaves l)); [|exact El]. apply Forall_forall. intros x Hx. apply H, in_or_app. now left.
    + apply (samples_range n (leaves r)); [|exact Er]. apply Forall_forall. intros x Hx. apply H, in_or_app. now right.
Qed.

Lemma samples_perm n l l' : Permutation l l' -> forall a, samples n l = Some a -> exists a', samples n l' = Some a' /\ Permutation a a'.
Proof.
  induction 1 as [|x l l' H IH|x y l|l l' l'' H1 IH1 H2 IH2]; intros a Ha.
  - exists a. auto.
  - cbn [samples] in *. destruct (stats_at x n) as [v|]; [|discriminate]. destruct (samples n l) as [r|]; [|discriminate]. injection Ha as <-.
    destruct (IH r eq_refl) as (r' & -> & HP). exists (v :: r'). auto.
  - cbn [samples] in *. destruct (stats_at y n) as [v|]; [|discriminate]. destruct (stats_at x n) as [w|]; [|discriminate].
    destruct (samples n l) as [r|]; [|discriminate]. injection Ha as <-. eexists. split; [reflexivity|]. apply perm_swap.
  - destruct (IH1 a Ha) as (b & Hb & P1). destruct (IH2 b Hb) as (d & Hd & P2). exists d. split; [exact Hd|]. now transitivity b.
Qed.

Lemma user_config_names c : user_config c -> NoDup (map sg_name c) /\ exists t, c = default_stats ++ t.
Proof.
  induction 1 as [|c n m c' i Hc [IH1 (t & IH2)] HA].
  - split; [|exists []; reflexivity]. cbn. repeat constructor; cbn; intuition discriminate.
  - unfold add_stat in HA. destruct (Nat.eqb_spec (get_stat_index_nothrow c n) (length c)) as [E|E]; [|discriminate]. injection HA as <- <-.
    split; [|exists (t ++ [{| sg_name := n; sg_mode := m |}]); rewrite IH2, <- app_assoc; reflexivity].
    rewrite map_app. cbn [map sg_name].
    assert (Hn : ~ In n (map sg_name c)).
    { clear - E. induction c as [|x c IH]; [intros []|]. cbn [get_stat_index_nothrow length map] in *.
      destruct (String.eqb_spec (sg_name x) n) as [En|En]; [discriminate|]. intros [H|H]; [contradiction|]. revert H. apply IH. lia. }
    clear - IH1 Hn. induction (map sg_name c) as [|x l IH]; cbn [app]; [repeat constructor; intros []|].
    inversion IH1 as [|? ? N1 N2]; subst. constructor.
    + intro H. apply in_app_or in H as [H|[H|[]]]; [contradiction|]. subst. apply Hn. now left.
    + apply IH; [exact N2|]. intro H. apply Hn. now right.
Qed.
Lemma index_nth c i k : NoDup (map sg_name c) -> nth_error c i = Some k -> get_stat_index c (sg_name k) = Some i.
Proof.
  intros HN Hk. unfold get_stat_index.
  assert (E : get_stat_index_nothrow c (sg_name k) = i).
  { revert i Hk. induction c as [|x c IH]; intros [|i] Hk; try discriminate; cbn [nth_error get_stat_index_nothrow map] in *.
    - injection Hk as ->. now rewrite String.eqb_refl.
    - inversion HN as [|? ? N1 N2]; subst. destruct (String.eqb_spec (sg_name x) (sg_name k)) as [En|En].
      + exfalso. apply N1. rewrite En. apply in_map. eapply nth_error_In. exact Hk.
      + f_equal. now apply IH. }
  rewrite E. assert (i < length c)%nat by (apply nth_error_Some; congruence). destruct (Nat.eqb_spec i (length c)); [lia|reflexivity].
Qed.

Lemma nth_error_ext' {A} (l : list A) : forall l', (forall i, nth_error l i = nth_error l' i) -> l = l'.
Proof.
  induction l as [|x l IH]; intros [|y l'] H; [reflexivity|specialize (H O); discriminate|specialize (H O); discriminate|].
  pose proof (H O) as H0. injection H0 as ->. f_equal. apply IH. intro i. exact (H (S i)).
Qed.

(** * C22 *)
(** Any grouping and any order of merging objects with the same configuration
    gives the same statistics; a counter is the sum (mod 2^64) and a maximum the
    largest of the samples with that name. *)
Theorem C22_merge : forall c t t',
  (forall s, In s (leaves t) -> stats_ok s /\ sv_config s = c) -> Permutation (leaves t) (leaves t') -> user_config c ->
  exists s, merged t = Some s /\ merged t' = Some s /\ stats_ok s /\ sv_config s = c /\
    forall k i, nth_error c i = Some k ->
      exists vs, samples (sg_name k) (leaves t) = Some vs /\ stats_at s (sg_name k) = Some (total (sg_mode k) vs) /\
        nth_error (sv_values s) i = Some (total (sg_mode k) vs).
Proof.
  intros c t t' H HP HU. destruct (user_config_names c HU) as [HN _].
  destruct (merged_ok c t H) as (s & E & Hs & Cs & V).
  assert (H' : forall s, In s (leaves t') -> stats_ok s /\ sv_config s = c).
  { intros x Hx. apply H. eapply Permutation_in; [apply Permutation_sym; exact HP|exact Hx]. }
  destruct (merged_ok c t' H') as (s' & E' & Hs' & Cs' & V').
  assert (HK : forall k i, nth_error c i = Some k -> exists vs, samples (sg_name k) (leaves t) = Some vs).
  { intros k i Hk. pose proof (index_nth c i k HN Hk) as Hi. clear - H Hi. revert H. generalize (leaves t). induction l as [|x l IH]; intro H; [exists []; reflexivity|].
    destruct (H x (or_introl eq_refl)) as [Hx Cx]. destruct (at_some x (sg_name k) Hx) as [(v & Ev & _)|[_ Ev]]; [|rewrite Cx in Ev; congruence].
    destruct IH as (r & Er); [intros; apply H; now right|]. exists (v :: r). cbn [samples]. now rewrite Ev, Er. }
  assert (HM : forall k i, nth_error c i = Some k -> mode_of c (sg_name k) = sg_mode k).
  { intros k i Hk. unfold mode_of. now rewrite (index_nth c i k HN Hk), Hk. }
  assert (HI : forall x k i, sv_config x = c -> nth_error c i = Some k -> stats_at x (sg_name k) = nth_error (sv_values x) i).
  { intros x k i Cx Hk. unfold stats_at. now rewrite Cx, (index_nth c i k HN Hk). }
  assert (s' = s).
  { destruct s as [cs vs], s' as [cs' vs']. cbn [sv_config] in Cs, Cs'. subst cs cs'. f_equal.
    apply nth_error_ext'. intro i. destruct (nth_error c i) as [k|] eqn:Hk.
    - destruct (HK k i Hk) as (l & Hl). destruct (samples_perm _ _ _ HP l Hl) as (l' & Hl' & HPl).
      destruct (V _ _ Hl) as [_ V1]. destruct (V' _ _ Hl') as [_ V2].
      rewrite (HI {| sv_config := c; sv_values := vs |} k i eq_refl Hk) in V1. rewrite (HI {| sv_config := c; sv_values := vs' |} k i eq_refl Hk) in V2. cbn [sv_values] in V1, V2. rewrite V1, V2. f_equal. symmetry. now apply total_perm.
    - apply nth_error_None in Hk. destruct Hs as [L1 _], Hs' as [L2 _]. cbn [sv_config sv_values] in *.
      rewrite (proj2 (nth_error_None vs' i)), (proj2 (nth_error_None vs i)) by lia. reflexivity. }
  subst s'. exists s. split; [exact E|]. split; [exact E'|]. split; [exact Hs|]. split; [exact Cs|].
  intros k i Hk. destruct (HK k i Hk) as (vs & Hvs). exists vs. destruct (V _ _ Hvs) as [_ V1]. rewrite (HM k i Hk) in V1.
  split; [exact Hvs|]. split; [exact V1|]. now rewrite <- (HI s k i Cs Hk).
Qed.
Print Assumptions C22_merge.

(** Objects with different lists of statistics are never merged. *)
Theorem C22_mismatch : forall a b, sv_config a <> sv_config b -> stats_add a b = None.
Proof.
  intros a b H. unfold stats_add. destruct (configs_eqb _ _) eqn:E; [|reflexivity]. apply configs_eqb_eq in E. contradiction.
Qed.
Print Assumptions C22_mismatch.

(** Names and indices stay aligned: names are unique, a new statistic gets the
    next index, and every older one (the core ones included) keeps its own. *)
Theorem C22_indices : forall c n m c' i, user_config c -> add_stat c n m = Some (c', i) ->
  i = length c /\ get_stat_index c' n = Some i /\ get_stat_index c n = None /\
  (forall n' j, get_stat_index c n' = Some j -> get_stat_index c' n' = Some j) /\
  (forall j k, nth_error default_stats j = Some k -> nth_error c' j = Some k /\ get_stat_index c' (sg_name k) = Some j).
Proof.
  intros c n m c' i HU HA. pose proof (UC_add _ _ _ _ _ HU HA) as HU'. destruct (user_config_names c' HU') as [HN (t & Ht)].
  unfold add_stat in HA. destruct (Nat.eqb_spec (get_stat_index_nothrow c n) (length c)) as [E|E]; [|discriminate]. injection HA as <- <-.
  split; [reflexivity|]. split.
  { apply (index_nth _ (length c) {| sg_name := n; sg_mode := m |} HN). rewrite nth_error_app2, Nat.sub_diag by lia. reflexivity. }
  split; [unfold get_stat_index; rewrite E, Nat.eqb_refl; reflexivity|]. split.
  - intros n' j Hj. destruct (index_some _ _ _ Hj) as (k & Hk & <-). apply (index_nth _ j k HN).
    rewrite nth_error_app1; [exact Hk|]. apply nth_error_Some. congruence.
  - intros j k Hk. assert (Hk' : nth_error (c ++ [{| sg_name := n; sg_mode := m |}]) j = Some k).
    { rewrite Ht, nth_error_app1; [exact Hk|]. apply nth_error_Some. congruence. }
    split; [exact Hk'|]. now apply index_nth.
Qed.
Print Assumptions C22_indices.

(** Non-vacuity: a configuration with a custom maximum; three objects. *)
Definition ex_stats_config : list stat_config := default_stats ++ [{| sg_name := "mine"; sg_mode := Maximum |}].
Definition ex_stats (k : Z) : stats := {| sv_config := ex_stats_config; sv_values := [k; 2 ^ 64 - k; 1; 2; 3; k * 5; 4; 5; 6; 100 - k] |}.
Example C22_ex : user_config ex_stats_config /\
  (forall s, In s (leaves (Node (Leaf (ex_stats 1)) (Node (Leaf (ex_stats 2)) (Leaf (ex_stats 3))))) -> stats_ok s /\ sv_config s = ex_stats_config) /\
  Permutation [ex_stats 1; ex_stats 2; ex_stats 3] (leaves (Node (Node (Leaf (ex_stats 3)) (Leaf (ex_stats 1))) (Leaf (ex_stats 2)))) /\
  option_map sv_values (merged (Node (Leaf (ex_stats 1)) (Node (Leaf (ex_stats 2)) (Leaf (ex_stats 3))))) = Some [6; 2 ^ 64 - 6; 3; 6; 9; 15; 12; 15; 18; 99] /\
  stats_add (ex_stats 1) (stats_new default_stats) = None.
Proof.
  split; [apply (UC_add default_stats "mine" Maximum _ 9); [constructor|reflexivity]|]. split.
  - intros s Hs. cbn [leaves app In] in Hs. repeat destruct Hs as [<-|Hs]; try destruct Hs; (split; [split; [reflexivity|]|reflexivity]);
      cbn; repeat (constructor; [lia|]); constructor.
  - split; [cbn [leaves app]; apply (Permutation_cons_app [ex_stats 3] [ex_stats 2]); apply perm_swap|]. split; reflexivity.
Qed.
