(** C27: the memory pool. *)
From Coq Require Import List Arith Bool Lia Permutation.
From Verif Require Import MemPoolModel.
Import ListNotations.

(** * Spec *)
(** Every place a block can be: idle in the pool, with the user, in a refill
    task, given back to the base allocator. *)
Definition in_tasks (l : list (option block)) : list block := flat_map (fun x => match x with Some b => [b] | None => [] end) l.
Definition everywhere (s : mpool) : list block := mp_pool s ++ map hd_block (mp_out s) ++ in_tasks (mp_tasks s) ++ mp_freed s.

(** * Proofs *)
Lemma remove_perm {A} (l : list A) i x : nth_error l i = Some x -> Permutation l (x :: remove_nth i l).
Proof.
  revert i. induction l as [|y l IH]; intros [|i] H; try discriminate; cbn [nth_error] in H.
  - injection H as ->. apply Permutation_refl.
  - unfold remove_nth in *. cbn [firstn skipn app]. rewrite (IH i H) at 1. apply perm_swap.
Qed.
Lemma in_tasks_remove l i b : nth_error l i = Some (Some b) -> Permutation (in_tasks l) (b :: in_tasks (remove_nth i l)).
Proof.
  intro H. pose proof (remove_perm _ _ _ H) as P. unfold in_tasks. now rewrite (Permutation_flat_map _ P).
Qed.
Lemma in_tasks_remove_none l i : nth_error l i = Some None -> Permutation (in_tasks l) (in_tasks (remove_nth i l)).
Proof. intro H. pose proof (remove_perm _ _ _ H) as P. unfold in_tasks. now rewrite (Permutation_flat_map _ P). Qed.
Lemma length_remove {A} (l : list A) i x : nth_error l i = Some x -> length (remove_nth i l) = length l - 1.
Proof. intro H. apply remove_perm, Permutation_length in H. cbn [length] in H. lia. Qed.

Record minv (c : mcfg) (s : mpool) : Prop := {
  mi_ids : Permutation (map fst (everywhere s)) (seq 0 (mp_next s));
  mi_free : length (mp_pool s) <= mc_max_free c;
  mi_pool : Forall (fun b => snd b = mc_upper c) (mp_pool s);
  mi_tasks : Forall (fun x => match x with Some b => snd b = mc_upper c | None => True end) (mp_tasks s);
  mi_out : Forall (fun h => hd_req h <= snd (hd_block h) /\ (hd_managed h = true -> mc_lower c <= hd_req h /\ snd (hd_block h) = mc_upper c)) (mp_out s);
  mi_pend : Forall (fun n => mc_lower c <= n <= mc_upper c) (mp_pending s);
  mi_refill : length (mp_tasks s) <= (if mp_refilling s then 1 else 0);
  mi_refill_alive : mp_alive s = true -> length (mp_tasks s) = (if mp_refilling s then 1 else 0);
  mi_dead : mp_alive s = false -> mp_pool s = [] /\ mp_refs s = 0 /\ existsb hd_managed (mp_out s) = false /\ mp_pending s = [];
  mi_live : mp_alive s = true -> 0 < mp_refs s \/ existsb hd_managed (mp_out s) = true \/ mp_pending s <> []
}.

Lemma seq_fresh from n size : map fst (fresh from n size) = seq from n.
Proof. revert from. induction n as [|n IH]; intro from; cbn [fresh map seq fst]; [reflexivity|]. now rewrite IH. Qed.
Lemma fresh_size from n size : Forall (fun b => snd b = size) (fresh from n size).
Proof. revert from. induction n as [|n IH]; intro from; cbn [fresh]; constructor; auto. Qed.
Lemma fresh_length from n size : length (fresh from n size) = n.
Proof. revert from. induction n as [|n IH]; intro from; cbn [fresh length]; auto. Qed.
Lemma Forall_remove {A} (P : A -> Prop) l i : Forall P l -> Forall P (remove_nth i l).
Proof.
  rewrite !Forall_forall. intros H x Hx. apply H. unfold remove_nth in Hx. apply in_app_or in Hx as [Hx|Hx].
  - rewrite <- (firstn_skipn i l). apply in_or_app. now left.
  - rewrite <- (firstn_skipn (S i) l). apply in_or_app. now right.
Qed.

Lemma minv_new c : mc_ok c -> minv c (mpool_new c).
Proof.
  intros (_ & Hi & _). constructor; unfold mpool_new, everywhere; cbn [mp_pool mp_refilling mp_alive mp_refs mp_out mp_pending mp_tasks mp_freed mp_next map in_tasks flat_map app length]; auto; try discriminate.
  - rewrite app_nil_r, seq_fresh. reflexivity.
  - now rewrite fresh_length.
  - apply fresh_size.
Qed.

(** Everything except the liveness clause survives [settle], which restores it. *)
Record minv0 (c : mcfg) (s : mpool) : Prop := {
  m0_ids : Permutation (map fst (everywhere s)) (seq 0 (mp_next s));
  m0_free : length (mp_pool s) <= mc_max_free c;
  m0_pool : Forall (fun b => snd b = mc_upper c) (mp_pool s);
  m0_tasks : Forall (fun x => match x with Some b => snd b = mc_upper c | None => True end) (mp_tasks s);
  m0_out : Forall (fun h => hd_req h <= snd (hd_block h) /\ (hd_managed h = true -> mc_lower c <= hd_req h /\ snd (hd_block h) = mc_upper c)) (mp_out s);
  m0_pend : Forall (fun n => mc_lower c <= n <= mc_upper c) (mp_pending s);
  m0_refill : length (mp_tasks s) <= (if mp_refilling s then 1 else 0);
  m0_refill_alive : mp_alive s = true -> length (mp_tasks s) = (if mp_refilling s then 1 else 0);
  m0_dead : mp_alive s = false -> mp_pool s = [] /\ mp_refs s = 0 /\ existsb hd_managed (mp_out s) = false /\ mp_pending s = []
}.
Lemma minv_settle c s : minv0 c s -> minv c (settle s).
Proof.
  intros []. unfold settle. destruct (mp_alive s) eqn:Ea; cbn [andb].
  - destruct (Nat.eqb_spec (mp_refs s) 0) as [E0|E0]; cbn [andb].
    + destruct (existsb hd_managed (mp_out s)) eqn:Ee; cbn [andb negb].
      * constructor; auto; try (rewrite Ea; intro; discriminate).
      * destruct (Nat.eqb_spec (length (mp_pending s)) 0) as [Ep|Ep]; cbn [andb].
        { constructor; cbn [mp_pool mp_refilling mp_alive mp_refs mp_out mp_pending mp_tasks mp_freed mp_next length]; auto; try lia; try discriminate.
          unfold everywhere in *. cbn [mp_pool mp_out mp_tasks mp_freed app]. rewrite <- m0_ids0. apply Permutation_map. rewrite !app_assoc. rewrite (Permutation_app_comm (_ ++ _) (mp_pool s)). rewrite <- !app_assoc.
          apply Permutation_refl. }
        { constructor; auto; try (rewrite Ea; intro; discriminate). intros _. right. right. intro E. rewrite E in Ep. now apply Ep. }
    + constructor; auto; try (rewrite Ea; intro; discriminate). intros _. left. lia.
  - constructor; auto; rewrite Ea; discriminate.
Qed.
Lemma minv_minv0 c s : minv c s -> minv0 c s.
Proof. intros []. constructor; auto. Qed.

Lemma minv_step c s l s' : mc_ok c -> minv c s -> mp_step c s l = Some s' -> minv c s'.
Proof.
  intros Hok I HS. pose proof I as []. destruct l as [size|i|i| | |i]; cbn [mp_step] in HS.
  - destruct (Nat.eqb_spec (mp_refs s) 0) as [Er|Er]; [discriminate|].
    assert (Hal : mp_alive s = true). { destruct (mp_alive s) eqn:E; [reflexivity|]. destruct (mi_dead0 eq_refl) as (_ & ? & _). contradiction. }
    destruct ((mc_lower c <=? size) && (size <=? mc_upper c)) eqn:Hin.
    + apply andb_true_iff in Hin as [H1 H2]. apply Nat.leb_le in H1, H2. destruct (mp_pool s) as [|b rest] eqn:Ep; injection HS as <-.
      * constructor; cbn [mp_pool mp_refilling mp_alive mp_refs mp_out mp_pending mp_tasks mp_freed mp_next length] in *; auto; try (rewrite Hal; discriminate).
        { unfold everywhere in *. rewrite Ep in mi_ids0. exact mi_ids0. }
        { lia. }
      * inversion mi_pool0 as [|? ? Hb Hrest]; subst.
        constructor; cbn [mp_pool mp_refilling mp_alive mp_refs mp_out mp_pending mp_tasks mp_freed mp_next length] in *; auto; try (rewrite Hal; discriminate); try lia.
        { rewrite <- mi_ids0. unfold everywhere. rewrite Ep. apply Permutation_map. cbn [mp_pool mp_out mp_tasks mp_freed map hd_block app].
          assert (Ht : in_tasks (if (length rest <? mc_low_water c) && negb (mp_refilling s) then None :: mp_tasks s else mp_tasks s) = in_tasks (mp_tasks s)) by (destruct (_ && _); reflexivity).
          rewrite Ht. symmetry. apply Permutation_middle. }
        { destruct (_ && _); [constructor; auto|assumption]. }
        { constructor; [|assumption]. cbn [hd_req hd_block hd_managed]. rewrite Hb. split; [lia|]. auto. }
        { destruct (mp_refilling s); cbn [negb andb orb]; [rewrite andb_false_r; assumption|]. rewrite andb_true_r. destruct (length rest <? mc_low_water c); cbn [length]; lia. }
        { intros _. specialize (mi_refill_alive0 Hal). destruct (mp_refilling s); cbn [negb andb orb]; [rewrite andb_false_r; assumption|]. rewrite andb_true_r. destruct (length rest <? mc_low_water c); cbn [length]; lia. }
    + injection HS as <-.
      constructor; cbn [mp_pool mp_refilling mp_alive mp_refs mp_out mp_pending mp_tasks mp_freed mp_next length] in *; auto; try (rewrite Hal; discriminate); try lia.
      * unfold everywhere in *. cbn [mp_pool mp_out mp_tasks mp_freed map hd_block]. rewrite seq_S, Nat.add_0_l.
        cbn [app]. rewrite <- Permutation_middle. cbn [map fst]. rewrite mi_ids0. apply Permutation_cons_append.
      * constructor; [|assumption]. cbn [hd_req hd_block hd_managed snd]. split; [lia|discriminate].
  - destruct (nth_error (mp_pending s) i) as [size|] eqn:Ei; [|discriminate]. injection HS as <-.
    assert (Hs : mc_lower c <= size <= mc_upper c). { rewrite Forall_forall in mi_pend0. apply mi_pend0. eapply nth_error_In. exact Ei. }
    assert (Hal : mp_alive s = true). { destruct (mp_alive s) eqn:E; [reflexivity|]. destruct (mi_dead0 eq_refl) as (_ & _ & _ & Hp). rewrite Hp in Ei. now destruct i. }
    constructor; cbn [mp_pool mp_refilling mp_alive mp_refs mp_out mp_pending mp_tasks mp_freed mp_next length existsb hd_managed] in *; auto; try (rewrite Hal; discriminate).
    + unfold everywhere in *. cbn [mp_pool mp_out mp_tasks mp_freed map hd_block]. rewrite seq_S, Nat.add_0_l.
      cbn [app]. rewrite <- Permutation_middle. cbn [map fst]. rewrite mi_ids0. apply Permutation_cons_append.
    + constructor; [|assumption]. cbn [hd_req hd_block hd_managed snd]. split; [lia|]. intros _. split; [lia|reflexivity].
    + now apply Forall_remove.
  - destruct (nth_error (mp_out s) i) as [h|] eqn:Ei; [|discriminate]. injection HS as <-.
    pose proof (remove_perm _ _ _ Ei) as P. assert (Hh := mi_out0). rewrite Forall_forall in Hh. specialize (Hh h (nth_error_In _ _ Ei)).
    apply minv_settle. constructor; cbn [mp_pool mp_refilling mp_alive mp_refs mp_out mp_pending mp_tasks mp_freed mp_next] in *; auto.
    + rewrite <- mi_ids0. unfold everywhere. cbn [mp_pool mp_out mp_tasks mp_freed]. apply Permutation_map.
      rewrite (Permutation_map hd_block P). cbn [map app].
      destruct (hd_managed h && _); cbn [app].
      * rewrite <- Permutation_middle. reflexivity.
      * apply Permutation_app_head. rewrite <- Permutation_middle. rewrite <- Permutation_middle. reflexivity.
    + destruct (Nat.ltb_spec (length (mp_pool s)) (mc_max_free c)), (hd_managed h); cbn [andb length]; lia.
    + destruct (hd_managed h); cbn [andb]; [|assumption]. destruct (_ <? _); [|assumption]. constructor; [|assumption]. now apply Hh.
    + now apply Forall_remove.
    + intro Ha. destruct (mi_dead0 Ha) as (D1 & D2 & D3 & D4). assert (Hm : hd_managed h = false).
      { destruct (hd_managed h) eqn:E; [|reflexivity]. assert (existsb hd_managed (mp_out s) = true); [|congruence]. apply existsb_exists. exists h. split; [eapply nth_error_In; exact Ei|exact E]. }
      rewrite Hm. cbn [andb]. split; [assumption|]. split; [assumption|]. split; [|assumption].
      destruct (existsb hd_managed (remove_nth i (mp_out s))) eqn:E; [|reflexivity]. exfalso. apply existsb_exists in E as (x & Hx & Hx2).
      assert (existsb hd_managed (mp_out s) = true); [|congruence]. apply existsb_exists. exists x. split; [|exact Hx2]. eapply Permutation_in; [apply Permutation_sym; exact P|]. now right.
  - destruct (Nat.eqb_spec (mp_refs s) 0) as [Er|Er]; [discriminate|]. injection HS as <-.
    assert (Hal : mp_alive s = true). { destruct (mp_alive s) eqn:E; [reflexivity|]. destruct (mi_dead0 eq_refl) as (_ & ? & _). contradiction. }
    constructor; cbn [mp_pool mp_refilling mp_alive mp_refs mp_out mp_pending mp_tasks mp_freed mp_next] in *; auto; try (rewrite Hal; discriminate). intros _. left. lia.
  - destruct (mp_refs s) as [|n] eqn:Er; [discriminate|]. injection HS as <-. apply minv_settle.
    constructor; cbn [mp_pool mp_refilling mp_alive mp_refs mp_out mp_pending mp_tasks mp_freed mp_next] in *; auto.
    intro Ha. destruct (mi_dead0 Ha) as (? & ? & ? & ?). discriminate.
  - destruct (nth_error (mp_tasks s) i) as [[b|]|] eqn:Ei; [| |discriminate].
    + pose proof (in_tasks_remove _ _ _ Ei) as P. pose proof (length_remove _ _ _ Ei) as PL. assert (Hb := mi_tasks0). rewrite Forall_forall in Hb. specialize (Hb _ (nth_error_In _ _ Ei)). cbn in Hb.
      assert (Hlen : length (mp_tasks s) = 1 /\ mp_refilling s = true).
      { assert (0 < length (mp_tasks s)) by (destruct (mp_tasks s); [destruct i; discriminate|cbn; lia]). destruct (mp_refilling s); [split; [lia|reflexivity]|lia]. }
      destruct Hlen as [HL HR].
      destruct (mp_alive s) eqn:Ea; cbn [negb] in HS; injection HS as <-.
      * constructor; cbn [mp_pool mp_refilling mp_alive mp_refs mp_out mp_pending mp_tasks mp_freed mp_next] in *; auto; try discriminate.
        { rewrite <- mi_ids0. unfold everywhere. cbn [mp_pool mp_out mp_tasks mp_freed]. apply Permutation_map.
          assert (Ht : in_tasks (if mc_initial c <=? length (if length (mp_pool s) <? mc_max_free c then b :: mp_pool s else mp_pool s) then remove_nth i (mp_tasks s) else None :: remove_nth i (mp_tasks s)) = in_tasks (remove_nth i (mp_tasks s))) by (destruct (_ <=? _); reflexivity).
          rewrite Ht, P. destruct (_ <? _); cbn [app].
          - rewrite <- (Permutation_middle (map hd_block (mp_out s))). apply Permutation_middle.
          - apply Permutation_app_head, Permutation_app_head. rewrite <- Permutation_middle. reflexivity. }
        { destruct (Nat.ltb_spec (length (mp_pool s)) (mc_max_free c)); cbn [length]; lia. }
        { destruct (_ <? _); [constructor; auto|assumption]. }
        { destruct (_ <=? _); [now apply Forall_remove|constructor; [exact Logic.I|now apply Forall_remove]]. }
        { destruct (_ <=? _); [lia|]. rewrite HR. cbn [length]. lia. }
        { intros _. destruct (_ <=? _); [lia|]. rewrite HR. cbn [length]. lia. }
      * constructor; cbn [mp_pool mp_refilling mp_alive mp_refs mp_out mp_pending mp_tasks mp_freed mp_next] in *; auto; try discriminate; try lia.
        { rewrite <- mi_ids0. unfold everywhere. cbn [mp_pool mp_out mp_tasks mp_freed]. apply Permutation_map. rewrite P.
          apply Permutation_app_head, Permutation_app_head. rewrite <- Permutation_middle. reflexivity. }
        { now apply Forall_remove. }
    + injection HS as <-. pose proof (in_tasks_remove_none _ _ Ei) as P. pose proof (length_remove _ _ _ Ei) as PL.
      assert (0 < length (mp_tasks s)) by (destruct (mp_tasks s); [destruct i; discriminate|cbn; lia]).
      constructor; cbn [mp_pool mp_refilling mp_alive mp_refs mp_out mp_pending mp_tasks mp_freed mp_next] in *; auto; try discriminate.
      * unfold everywhere in *. cbn [mp_pool mp_out mp_tasks mp_freed]. rewrite seq_S, Nat.add_0_l.
        change (in_tasks (Some (mp_next s, mc_upper c) :: remove_nth i (mp_tasks s))) with ((mp_next s, mc_upper c) :: in_tasks (remove_nth i (mp_tasks s))).
        cbn [app]. rewrite app_assoc, <- Permutation_middle, <- app_assoc. cbn [map fst]. rewrite <- P, mi_ids0. apply Permutation_cons_append.
      * constructor; [reflexivity|now apply Forall_remove].
      * cbn [length]. lia.
      * intro Ha. specialize (mi_refill_alive0 Ha). cbn [length]. lia.
Qed.
Lemma reach_inv c s : mc_ok c -> mp_reach c s -> minv c s.
Proof. intros Hok H. induction H as [|s l s' _ IH HS]; [now apply minv_new|]. now apply (minv_step c s l). Qed.

(** * C27 *)
(** Every block ever obtained from the base allocator is in exactly one place:
    so a block held by the user is not idle, not held twice and not freed. *)
Theorem C27_exclusive : forall c s, mc_ok c -> mp_reach c s -> Permutation (map fst (everywhere s)) (seq 0 (mp_next s)) /\ NoDup (map fst (everywhere s)).
Proof.
  intros c s Hok H. destruct (reach_inv c s Hok H). split; [assumption|]. eapply Permutation_NoDup; [apply Permutation_sym; eassumption|apply seq_NoDup].
Qed.
Print Assumptions C27_exclusive.
(** A block is at least as large as was asked for; never more than max_free idle blocks. *)
Theorem C27_limits : forall c s, mc_ok c -> mp_reach c s ->
  length (mp_pool s) <= mc_max_free c /\ (forall h, In h (mp_out s) -> hd_req h <= snd (hd_block h)) /\ length (mp_tasks s) <= 1.
Proof.
  intros c s Hok H. destruct (reach_inv c s Hok H). split; [assumption|]. split; [|destruct (mp_refilling s); lia].
  intros h Hh. rewrite Forall_forall in mi_out0. now apply mi_out0.
Qed.
Print Assumptions C27_limits.
(** A request in range always gets a block: an idle one if there is one. *)
Theorem C27_allocate : forall c s size, mp_refs s <> 0 ->
  exists s', mp_step c s (MAlloc size) = Some s' /\
    (length (mp_out s') = S (length (mp_out s)) \/
     (mp_pool s = [] /\ exists s'', mp_step c s' (MFresh 0) = Some s'' /\ length (mp_out s'') = S (length (mp_out s)))).
Proof.
  intros c s size Hr. cbn [mp_step]. rewrite (proj2 (Nat.eqb_neq _ _) Hr). destruct (_ && _).
  - destruct (mp_pool s) as [|b rest].
    + eexists. split; [reflexivity|]. right. split; [reflexivity|]. eexists. split; [reflexivity|]. reflexivity.
    + eexists. split; [reflexivity|]. left. reflexivity.
  - eexists. split; [reflexivity|]. left. reflexivity.
Qed.
Print Assumptions C27_allocate.
(** Released blocks are kept or freed: once the user has dropped everything and
    the refill task (if any) has run, all blocks have been freed. *)
Theorem C27_no_leak : forall c s, mc_ok c -> mp_reach c s -> mp_refs s = 0 -> mp_out s = [] -> mp_pending s = [] -> mp_tasks s = [] ->
  mp_alive s = false /\ Permutation (map fst (mp_freed s)) (seq 0 (mp_next s)).
Proof.
  intros c s Hok H Hr Ho Hp Ht. destruct (reach_inv c s Hok H). destruct (mp_alive s) eqn:Ea.
  - exfalso. destruct (mi_live0 eq_refl) as [X|[X|X]]; [lia|rewrite Ho in X; discriminate|contradiction].
  - split; [reflexivity|]. destruct (mi_dead0 eq_refl) as (D & _). unfold everywhere in mi_ids0. now rewrite D, Ho, Ht in mi_ids0.
Qed.
Print Assumptions C27_no_leak.
(** The refill task ends: run on its own it does so after at most
    initial + 1 blocks, leaving at least [initial] idle blocks (if the pool is
    still there). *)
Fixpoint run_task (c : mcfg) (k : nat) (s : mpool) : option mpool :=
  match k with O => Some s | S k' => match mp_step c s (MTask 0) with Some s' => run_task c k' s' | None => None end end.
Theorem C27_refill_ends : forall c s, mc_ok c -> mp_reach c s -> mp_tasks s <> [] ->
  exists k s', k <= 2 * mc_initial c + 2 /\ run_task c k s = Some s' /\ mp_tasks s' = [] /\
    (mp_alive s = true -> mp_refilling s' = false /\ mc_initial c <= length (mp_pool s')).
Proof.
  intros c s Hok H Ht. pose proof (reach_inv c s Hok H) as I0. clear H.
  assert (G : forall n s, minv c s -> (forall b, mp_tasks s = [Some b] -> (mp_alive s = false \/ mc_initial c <= length (mp_pool s) + S n) ->
      exists k s', k <= 2 * n + 1 /\ run_task c k s = Some s' /\ mp_tasks s' = [] /\ (mp_alive s = true -> mp_refilling s' = false /\ mc_initial c <= length (mp_pool s')))).
  { induction n as [|n IH]; intros s0 I b Hb Hn.
    - exists 1. cbn [run_task mp_step]. rewrite Hb. cbn [nth_error]. destruct (mp_alive s0) eqn:Ea; cbn [negb].
      + destruct Hn as [Hn|Hn]; [discriminate|]. destruct Hok as (_ & Hmf & _).
        destruct (Nat.ltb_spec (length (mp_pool s0)) (mc_max_free c)) as [Hl|Hl].
        * rewrite (proj2 (Nat.leb_le (mc_initial c) (length (b :: mp_pool s0)))) by (cbn [length]; lia). eexists. split; [lia|]. split; [reflexivity|]. cbn. split; [reflexivity|]. intros _. split; [reflexivity|lia].
        * rewrite (proj2 (Nat.leb_le (mc_initial c) (length (mp_pool s0)))) by lia. eexists. split; [lia|]. split; [reflexivity|]. cbn. split; [reflexivity|]. intros _. split; [reflexivity|lia].
      + eexists. split; [lia|]. split; [reflexivity|]. cbn. split; [reflexivity|]. discriminate.
    - destruct (mp_alive s0) eqn:Ea.
      2: { exists 1. cbn [run_task mp_step]. rewrite Hb. cbn [nth_error]. rewrite Ea. cbn [negb]. eexists. split; [lia|]. split; [reflexivity|]. cbn. split; [reflexivity|discriminate]. }
      destruct Hn as [Hn|Hn]; [discriminate|].
      destruct (mp_step c s0 (MTask 0)) as [s1|] eqn:E1; [|cbn [mp_step] in E1; rewrite Hb in E1; cbn [nth_error] in E1; rewrite Ea in E1; discriminate].
      pose proof (minv_step c s0 (MTask 0) s1 Hok I E1) as I1.
      assert (X : mp_alive s1 = true /\ ((mp_tasks s1 = [] /\ mp_refilling s1 = false /\ mc_initial c <= length (mp_pool s1)) \/ (mp_tasks s1 = [None] /\ length (mp_pool s1) = S (length (mp_pool s0))))).
      { cbn [mp_step] in E1. rewrite Hb in E1. cbn [nth_error] in E1. rewrite Ea in E1. cbn [negb] in E1. injection E1 as <-. cbn [mp_alive mp_tasks mp_refilling mp_pool]. split; [reflexivity|]. destruct Hok as (_ & Hmf & _).
        destruct (Nat.ltb_spec (length (mp_pool s0)) (mc_max_free c)) as [Hl|Hl].
        - destruct (Nat.leb_spec (mc_initial c) (length (b :: mp_pool s0))) as [Hi|Hi]; [left; auto|right; split; reflexivity].
        - destruct (Nat.leb_spec (mc_initial c) (length (mp_pool s0))) as [Hi|Hi]; [left; auto|lia]. }
      destruct X as [Ea1 [(X1 & X2 & X3)|(X1 & X2)]].
      + exists 1, s1. cbn [run_task]. rewrite E1. split; [lia|]. split; [reflexivity|]. auto.
      + destruct (mp_step c s1 (MTask 0)) as [s2|] eqn:E2; [|cbn [mp_step] in E2; rewrite X1 in E2; discriminate].
        pose proof (minv_step c s1 (MTask 0) s2 Hok I1 E2) as I2.
        assert (Y : mp_alive s2 = true /\ mp_pool s2 = mp_pool s1 /\ exists b2, mp_tasks s2 = [Some b2]).
        { cbn [mp_step] in E2. rewrite X1 in E2. cbn [nth_error] in E2. injection E2 as <-. cbn. rewrite Ea1. repeat split. eexists. reflexivity. }
        destruct Y as (Y1 & Y2 & b2 & Y3). destruct (IH s2 I2 b2 Y3) as (k & s' & K1 & K2 & K3 & K4); [right; rewrite Y2; lia|].
        exists (S (S k)), s'. split; [lia|]. cbn [run_task]. rewrite E1, E2. split; [exact K2|]. split; [exact K3|]. intros _. now apply K4. }
  assert (HL : length (mp_tasks s) <= 1) by (destruct I0 as [? ? ? ? ? ? X ? ? ?]; destruct (mp_refilling s); lia).
  destruct (mp_tasks s) as [|x [|y l]] eqn:Et; [congruence| |cbn [length] in HL; lia]. destruct x as [b|].
  - destruct (G (mc_initial c) s I0 b Et) as (k & s' & K1 & K2 & K3 & K4); [right; lia|]. exists k, s'. split; [lia|]. auto.
  - destruct (mp_step c s (MTask 0)) as [s1|] eqn:E1; [|cbn [mp_step] in E1; rewrite Et in E1; discriminate].
    pose proof (minv_step c s (MTask 0) s1 Hok I0 E1) as I1.
    assert (Y : mp_alive s1 = mp_alive s /\ exists b2, mp_tasks s1 = [Some b2]).
    { cbn [mp_step] in E1. rewrite Et in E1. cbn [nth_error] in E1. injection E1 as <-. cbn. split; [reflexivity|]. eexists. reflexivity. }
    destruct Y as (Y1 & b2 & Y3). destruct (G (mc_initial c) s1 I1 b2 Y3) as (k & s' & K1 & K2 & K3 & K4); [right; lia|].
    exists (S k), s'. split; [lia|]. cbn [run_task]. rewrite E1. split; [exact K2|]. split; [exact K3|]. rewrite <- Y1. exact K4.
Qed.
Print Assumptions C27_refill_ends.

(** Non-vacuity: a pool of 3 with low water 2 is drawn down (a refill starts),
    the user drops the pool while a managed block is out, then releases it. *)
Definition ex_mc : mcfg := {| mc_lower := 10; mc_upper := 100; mc_max_free := 4; mc_initial := 3; mc_low_water := 2 |}.
Fixpoint mp_run (c : mcfg) (s : mpool) (ls : list mlabel) : option mpool :=
  match ls with [] => Some s | l :: ls' => match mp_step c s l with Some s' => mp_run c s' ls' | None => None end end.
Lemma mp_run_reach c ls : forall s s', mp_reach c s -> mp_run c s ls = Some s' -> mp_reach c s'.
Proof.
  induction ls as [|l ls IH]; intros s s' H HR; cbn [mp_run] in HR; [congruence|]. destruct (mp_step c s l) as [s1|] eqn:E; [|discriminate].
  eapply IH; [|exact HR]. eapply mp_reach_step; [exact H|exact E].
Qed.
Example C27_ex : mc_ok ex_mc /\
  (exists s, mp_reach ex_mc s /\ mp_tasks s = [None] /\ mp_refilling s = true /\ length (mp_out s) = 3) /\
  (exists s, mp_reach ex_mc s /\ mp_refs s = 0 /\ mp_out s = [] /\ mp_pending s = [] /\ mp_tasks s = [] /\ mp_next s = 5).
Proof.
  split; [unfold mc_ok, ex_mc; cbn; lia|]. split.
  - destruct (mp_run ex_mc (mpool_new ex_mc) [MAlloc 20; MAlloc 100; MAlloc 5]) as [s|] eqn:E; [|vm_compute in E; discriminate].
    exists s. split; [eapply mp_run_reach; [constructor|exact E]|]. vm_compute in E. injection E as <-. repeat split.
  - destruct (mp_run ex_mc (mpool_new ex_mc) [MAlloc 20; MAlloc 100; MAlloc 200; MDrop; MRelease 1; MTask 0; MRelease 1; MTask 0; MRelease 0]) as [s|] eqn:E; [|vm_compute in E; discriminate].
    exists s. split; [eapply mp_run_reach; [constructor|exact E]|]. vm_compute in E. injection E as <-. repeat split.
Qed.
