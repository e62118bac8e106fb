(** The circular storage of a chunk window represents a list of live chunks; the
    window's functions obey the monitor of ChunkSpec. *)
From Coq Require Import ZArith List Bool Lia Sorted.
From Verif Require Import Base ConcBase ChunkModel ChunkSpec.
Import ListNotations.
Open Scope Z_scope.

Definition wrapn (max p : nat) : nat := if Nat.ltb p max then p else (p - max)%nat.
Record rep (max : nat) (w : window) (live : list (option Z)) : Prop := {
  rp_len : length (w_slots w) = max;
  rp_max : (0 < max)%nat /\ Z.of_nat max < 2 ^ 63;
  rp_range : 0 <= w_head w /\ w_tail w = w_head w + zlen live /\ w_tail w < 2 ^ 64;
  rp_hpos : (w_hpos w < max)%nat;
  rp_tpos : w_tpos w = wrapn max (w_hpos w + length live);
  rp_live : (length live <= max)%nat;
  rp_slots : forall i, (i < max)%nat -> nth_error (w_slots w) (wrapn max (w_hpos w + i)) = Some (nth i live None) }.

Lemma u64_small x : 0 <= x < 2 ^ 64 -> u64 x = x.
Proof. intro H. unfold u64. now apply Z.mod_small. Qed.

Lemma next_pos_wrap max p : (p < max)%nat -> next_pos max p = wrapn max (S p).
Proof.
  intro H. unfold next_pos, wrapn. destruct (Nat.eqb_spec (S p) max); destruct (Nat.ltb_spec (S p) max); lia.
Qed.
Lemma wrapn_lt max p : (p < 2 * max)%nat -> (wrapn max p < max)%nat.
Proof. intro H. unfold wrapn. destruct (Nat.ltb_spec p max); lia. Qed.
Lemma wrapn_inj max a b : (a < 2 * max)%nat -> (b < 2 * max)%nat -> (a < b + max)%nat -> (b < a + max)%nat -> wrapn max a = wrapn max b -> a = b.
Proof. unfold wrapn. intros H1 H2 H3 H4. destruct (Nat.ltb_spec a max); destruct (Nat.ltb_spec b max); lia. Qed.
(** wrapping twice *)
Lemma wrapn_add max a b : (a < max)%nat -> (b < max)%nat -> wrapn max (wrapn max (S a) + b) = if Nat.eqb (S b) max then a else wrapn max (a + S b).
Proof.
  intros H1 H2. unfold wrapn. destruct (Nat.ltb_spec (S a) max); destruct (Nat.eqb_spec (S b) max);
  repeat match goal with |- context [Nat.ltb ?x ?y] => destruct (Nat.ltb_spec x y) end; lia.
Qed.

Lemma rep_new max : (0 < max)%nat -> Z.of_nat max < 2 ^ 63 -> rep max (window_new max) [].
Proof.
  intros H1 H2. constructor; cbn [window_new w_slots w_head w_tail w_hpos w_tpos length Nat.add].
  - apply repeat_length.
  - auto.
  - unfold zlen; cbn [length]. change (Z.of_nat 0) with 0. lia.
  - exact H1.
  - unfold wrapn. destruct (Nat.ltb_spec 0 max); lia.
  - lia.
  - intros i Hi. unfold wrapn. destruct (Nat.ltb_spec i max); [|lia]. rewrite nth_error_repeat by lia. now destruct i.
Qed.

Definition revs (o : option Z) : list wev := match o with Some c => [EReady c] | None => [] end.
Definition rlist (l : list (option Z)) : list wev := flat_map revs l.

Lemma upd_none_id (sl : list (option Z)) p o : nth_error sl p = Some o -> match o with Some _ => upd sl p None | None => sl end = upd sl p None.
Proof. destruct o; [reflexivity|]. intro H. symmetry. now apply upd_id. Qed.

Lemma flush_head_rep max w o live : rep max w (o :: live) ->
  exists w', flush_head w = Some (w', revs o) /\ rep max w' live /\ w_head w' = w_head w + 1 /\ w_tail w' = w_tail w.
Proof.
  intros [Rl [Rm1 Rm2] [Rr1 [Rr2 Rr3]] Rh Rt Rv Rs]. rewrite zlen_cons in Rr2. pose proof (zlen_nonneg live) as Hz. cbn [length] in *.
  assert (Hs : nth_error (w_slots w) (w_hpos w) = Some o).
  { specialize (Rs 0%nat Rm1). rewrite Nat.add_0_r in Rs. unfold wrapn in Rs. destruct (Nat.ltb_spec (w_hpos w) max); [exact Rs|lia]. }
  unfold flush_head. destruct (Z.ltb_spec (w_head w) (w_tail w)); [|lia]. rewrite Hs.
  eexists. split; [reflexivity|]. cbn [w_head w_tail]. rewrite u64_small by lia. split; [|split; reflexivity].
  constructor; cbn [w_slots w_head w_tail w_hpos w_tpos]; rewrite ?(upd_none_id _ _ _ Hs).
  - now rewrite upd_length.
  - auto.
  - lia.
  - unfold w_max. rewrite Rl, next_pos_wrap by exact Rh. apply wrapn_lt. lia.
  - unfold w_max. rewrite Rl, next_pos_wrap by exact Rh. rewrite Rt.
    rewrite wrapn_add by lia. destruct (Nat.eqb_spec (S (length live)) max) as [E|E]; [|f_equal; lia].
    unfold wrapn. destruct (Nat.ltb_spec (w_hpos w + S (length live)) max); lia.
  - lia.
  - intros i Hi. unfold w_max. rewrite Rl, next_pos_wrap by exact Rh. rewrite wrapn_add by lia. destruct (Nat.eqb_spec (S i) max) as [E|E].
    + rewrite upd_same by lia. rewrite nth_overflow by lia. reflexivity.
    + rewrite upd_other.
      * rewrite Rs by lia. reflexivity.
      * intro X. assert (Y : wrapn max (w_hpos w + S i) = wrapn max (w_hpos w)) by (rewrite X; unfold wrapn; destruct (Nat.ltb_spec (w_hpos w) max); lia).
        apply wrapn_inj in Y; lia.
Qed.

Lemma gc_store_rep max w live o : rep max w live -> (length live < max)%nat -> w_tail w < 2 ^ 63 ->
  exists w', gc_store w o = Some w' /\ rep max w' (live ++ [o]) /\ w_head w' = w_head w /\ w_tail w' = w_tail w + 1.
Proof.
  intros [Rl [Rm1 Rm2] [Rr1 [Rr2 Rr3]] Rh Rt Rv Rs] Hl Ht. pose proof (zlen_nonneg live) as Hz.
  assert (Htp : (w_tpos w < max)%nat) by (rewrite Rt; apply wrapn_lt; lia).
  assert (H64 : 2 ^ 63 < 2 ^ 64) by reflexivity.
  unfold gc_store, w_max. rewrite Rl. destruct (Nat.ltb_spec (w_tpos w) max); [|lia].
  eexists. split; [reflexivity|]. cbn [w_head w_tail]. rewrite u64_small by lia. split; [|split; reflexivity].
  constructor; cbn [w_slots w_head w_tail w_hpos w_tpos].
  - now rewrite upd_length.
  - auto.
  - unfold zlen in *. rewrite app_length. cbn [length]. lia.
  - exact Rh.
  - rewrite next_pos_wrap by exact Htp. rewrite app_length. cbn [length]. rewrite Rt. unfold wrapn.
    repeat match goal with |- context [Nat.ltb ?x ?y] => destruct (Nat.ltb_spec x y) end; lia.
  - rewrite app_length. cbn [length]. lia.
  - intros i Hi. rewrite nth_upd. destruct (Nat.eqb_spec (wrapn max (w_hpos w + i)) (w_tpos w)) as [E|E].
    + rewrite Rt in E. apply wrapn_inj in E; [|lia..]. assert (i = length live) by lia. subst i.
      destruct (Nat.ltb_spec (w_tpos w) (length (w_slots w))); [|lia]. rewrite app_nth2 by lia. now rewrite Nat.sub_diag.
    + rewrite Rs by exact Hi. f_equal. destruct (Nat.lt_trichotomy i (length live)) as [L|[->|L]].
      * now rewrite app_nth1.
      * rewrite Rt in E. congruence.
      * rewrite !nth_overflow; [reflexivity| |lia]. rewrite app_length. cbn [length]. lia.
Qed.

Lemma set_range_rep max w h : rep max w [] -> 0 <= h < 2 ^ 64 -> rep max (set_range w h) [].
Proof.
  intros [Rl Rm [Rr1 [Rr2 Rr3]] Rh Rt Rv Rs] H. constructor; cbn [set_range w_slots w_head w_tail w_hpos w_tpos]; auto.
  change (zlen (@nil (option Z))) with 0. lia.
Qed.

(** The loops of flush_all and flush_until flush the first [k] chunks. *)
Lemma flush_loop_rep max bound : forall live n w, rep max w live -> (length live <= n)%nat ->
  exists k w', (k <= length live)%nat /\ flush_loop n bound w = Some (w', rlist (firstn k live)) /\ rep max w' (skipn k live) /\
    w_head w' = w_head w + Z.of_nat k /\ w_tail w' = w_tail w /\
    (k = length live \/ bound <= w_head w + Z.of_nat k) /\ (k = 0%nat \/ w_head w + Z.of_nat k <= bound).
Proof.
  induction live as [|o live IH]; intros n w R Hn.
  - exists 0%nat, w. split; [cbn [length]; lia|]. destruct (rp_range _ _ _ R) as (R1 & R2 & R3). change (zlen (@nil (option Z))) with 0 in R2.
    assert (E : w_empty w = true) by (unfold w_empty; lia). destruct n; cbn [flush_loop]; rewrite E; cbn [negb andb];
    (split; [reflexivity|]); (split; [exact R|]); (split; [lia|]); (split; [reflexivity|]); (split; [left; reflexivity|left; reflexivity]).
  - destruct (rp_range _ _ _ R) as (R1 & R2 & R3). rewrite zlen_cons in R2. pose proof (zlen_nonneg live) as Hz.
    assert (E : w_empty w = false) by (unfold w_empty; lia). cbn [length] in *. destruct n as [|n]; [lia|].
    cbn [flush_loop]. rewrite E. cbn [negb andb]. destruct (Z.ltb_spec (w_head w) bound) as [L|L].
    + destruct (flush_head_rep _ _ _ _ R) as (w1 & F & R' & Hh & Ht). rewrite F.
      destruct (IH n w1 R' ltac:(lia)) as (k & w2 & Hk & F2 & R2' & Hh2 & Ht2 & B1 & B2). rewrite F2.
      exists (S k), w2. split; [lia|]. split; [reflexivity|]. split; [exact R2'|]. split; [lia|]. split; [congruence|]. split.
      * destruct B1 as [->|B1]; [left; reflexivity|right; lia].
      * right. destruct B2 as [->|B2]; lia.
    + exists 0%nat, w. split; [lia|]. split; [reflexivity|]. split; [exact R|]. split; [lia|]. split; [reflexivity|]. split; [right; lia|left; reflexivity].
Qed.

Lemma flush_all_rep max w live next : rep max w live -> 0 <= next < 2 ^ 64 ->
  exists w', flush_all w next = Some (w', rlist live ++ if next =? w_head w then [] else [EHead next]) /\ rep max w' [] /\
    w_head w' = next /\ w_tail w' = next.
Proof.
  intros R Hn. unfold flush_all. unfold w_max. rewrite (rp_len _ _ _ R).
  destruct (flush_loop_rep max (2 ^ 64) live max w R (rp_live _ _ _ R)) as (k & w1 & Hk & F & R1 & Hh & Ht & B1 & _). rewrite F.
  assert (k = length live).
  { destruct B1 as [B1|B1]; [exact B1|]. destruct (rp_range _ _ _ R1) as (Q1 & Q2 & Q3). pose proof (zlen_nonneg (skipn k live)). lia. }
  subst k. rewrite firstn_all, skipn_all in *. eexists. split; [reflexivity|]. split; [now apply set_range_rep|]. split; reflexivity.
Qed.

Lemma flush_until_rep max w live t : rep max w live -> 0 <= t < 2 ^ 64 -> w_head w < t ->
  exists k w' live', flush_until w t = Some (w', rlist (firstn k live) ++ [EHead t]) /\ rep max w' live' /\ w_head w' = t /\
    (k <= length live)%nat /\ w_head w + Z.of_nat k <= t /\ live' = skipn k live /\
    ((w_head w + Z.of_nat k = t /\ w_tail w' = w_tail w) \/ (w_tail w < t /\ k = length live /\ w_tail w' = t)).
Proof.
  intros R Ht L. unfold flush_until. destruct (Z.ltb_spec (w_head w) t); [|lia]. unfold w_max. rewrite (rp_len _ _ _ R).
  destruct (flush_loop_rep max t live max w R (rp_live _ _ _ R)) as (k & w1 & Hk & F & R1 & Hh & Hta & B1 & B2). rewrite F.
  exists k. destruct (Z.ltb_spec (w_head w1) t) as [L2|L2].
  - assert (k = length live) by lia. subst k. rewrite firstn_all, skipn_all in *. exists (set_range w1 t), [].
    split; [reflexivity|]. split; [now apply set_range_rep|]. split; [reflexivity|]. split; [lia|]. split; [lia|]. split; [reflexivity|].
    right. destruct (rp_range _ _ _ R) as (Q1 & Q2 & Q3). unfold zlen in Q2. split; [lia|]. split; reflexivity.
  - exists w1, (skipn k live). split; [reflexivity|]. split; [exact R1|]. split; [lia|]. split; [exact Hk|]. split; [lia|]. split; [reflexivity|].
    left. split; [lia|exact Hta].
Qed.

Lemma chunk_pos_rep max w live id : rep max w live -> w_head w <= id < w_tail w -> id < 2 ^ 63 ->
  nth_error (w_slots w) (chunk_pos w id) = Some (nth (Z.to_nat (id - w_head w)) live None).
Proof.
  intros [Rl [Rm1 Rm2] [Rr1 [Rr2 Rr3]] Rh Rt Rv Rs] H1 H2. unfold zlen in Rr2. assert (H64 : 2 ^ 64 = 2 ^ 63 + 2 ^ 63) by reflexivity.
  rewrite <- (Rs (Z.to_nat (id - w_head w))) by lia. f_equal. unfold chunk_pos, w_max. rewrite Rl. rewrite u64_small by lia.
  unfold wrapn. replace (Z.to_nat (id - w_head w + Z.of_nat (w_hpos w))) with (w_hpos w + Z.to_nat (id - w_head w))%nat by lia.
  destruct (Nat.leb_spec max (w_hpos w + Z.to_nat (id - w_head w))); destruct (Nat.ltb_spec (w_hpos w + Z.to_nat (id - w_head w)) max); lia.
Qed.

Lemma get_const_rep max w live id : rep max w live -> 0 <= id < 2 ^ 63 ->
  get_const w id = Some (if (w_head w <=? id) && (id <? w_tail w) then nth (Z.to_nat (id - w_head w)) live None else None).
Proof.
  intros R H. unfold get_const. destruct (Z.leb_spec (w_head w) id); [|reflexivity]. destruct (Z.ltb_spec id (w_tail w)); [|reflexivity].
  cbn [andb]. apply (chunk_pos_rep max); [exact R|lia|lia].
Qed.

(** ** The window and the monitor *)
Fixpoint outs (h : Z) (live : list (option Z)) : list (Z * Z) :=
  match live with [] => [] | o :: l => match o with Some c => [(h, c)] | None => [] end ++ outs (h + 1) l end.
Lemma outs_app : forall l1 h l2, outs h (l1 ++ l2) = outs h l1 ++ outs (h + zlen l1) l2.
Proof.
  induction l1 as [|o l1 IH]; intros h l2; cbn [outs app]; [change (zlen (@nil (option Z))) with 0; rewrite Z.add_0_r; reflexivity|].
  rewrite IH, zlen_cons, app_assoc. do 2 f_equal. lia.
Qed.
Lemma outs_in : forall l h id c, In (id, c) (outs h l) <-> exists i, nth_error l i = Some (Some c) /\ id = h + Z.of_nat i.
Proof.
  induction l as [|o l IH]; intros h id c; cbn [outs].
  - split; [intros []|]. intros (i & H & _). now destruct i.
  - rewrite in_app_iff, IH. split.
    + intros [H|(i & H & ->)].
      * destruct o; cbn [In] in H; [|tauto]. destruct H as [[= <- <-]|[]]. exists 0%nat. split; [reflexivity|lia].
      * exists (S i). split; [exact H|lia].
    + intros ([|i] & H & ->).
      * cbn [nth_error] in H. injection H as ->. left. left. f_equal. lia.
      * right. exists i. split; [exact H|lia].
Qed.
Lemma outs_range l h p : In p (outs h l) -> h <= fst p < h + zlen l.
Proof.
  destruct p as [id c]. rewrite outs_in. intros (i & H & ->). cbn [fst]. assert (i < length l)%nat by (apply nth_error_Some; congruence). unfold zlen. lia.
Qed.
Lemma outs_forall l h (f : Z * Z -> bool) : (forall p, h <= fst p < h + zlen l -> f p = true) -> forallb f (outs h l) = true.
Proof. intro H. apply forallb_forall. intros p Hp. apply H. now apply outs_range. Qed.

(** [J]: between callbacks; [JB]: also the head has been reported. *)
Record J (max : nat) (m : cmon) (w : window) (live : list (option Z)) : Prop := {
  j_rep : rep max w live;
  j_out : cm_out m = outs (w_head w) live;
  j_next : 0 <= cm_next m <= w_tail w;
  j_head : 0 <= cm_head m <= w_head w }.
Definition JB max m w live := J max m w live /\ cm_head m = w_head w.

(** Chunks in the window stay where they are until the head passes them. *)
Definition stable (w : window) (live : list (option Z)) (w' : window) (live' : list (option Z)) : Prop :=
  w_head w <= w_head w' /\ w_tail w <= w_tail w' /\
  forall id, w_head w' <= id < w_tail w -> nth (Z.to_nat (id - w_head w')) live' None = nth (Z.to_nat (id - w_head w)) live None.
Lemma stable_refl w live : stable w live w live.
Proof. repeat split; try lia. Qed.
Lemma stable_trans w l w1 l1 w2 l2 : stable w l w1 l1 -> stable w1 l1 w2 l2 -> stable w l w2 l2.
Proof. intros (A1 & A2 & A3) (B1 & B2 & B3). repeat split; try lia. intros id H. rewrite B3, A3; [reflexivity|lia|lia]. Qed.
Lemma nth_skip {A} (d : A) : forall k l i, nth i (skipn k l) d = nth (k + i) l d.
Proof.
  induction k as [|k IH]; intros l i; [reflexivity|]. destruct l as [|x l]; [now rewrite skipn_nil, !nth_overflow by (cbn [length]; lia)|]. cbn [skipn Nat.add nth]. apply IH.
Qed.
Lemma stable_skip w live w' k : w_head w' = w_head w + Z.of_nat k -> w_tail w <= w_tail w' -> stable w live w' (skipn k live).
Proof.
  intros H1 H2. repeat split; try lia. intros id H. rewrite nth_skip. f_equal. lia.
Qed.
Lemma stable_past w live w' live' : w_head w <= w_head w' -> w_tail w <= w_tail w' -> w_tail w <= w_head w' -> stable w live w' live'.
Proof. intros. repeat split; try lia. Qed.

Lemma mon_readies max zmax w live m : forall k, (k <= length live)%nat -> J max m w live -> exists m',
  cmon_run zmax m (rlist (firstn k live)) = Some m' /\ cm_out m' = outs (w_head w + Z.of_nat k) (skipn k live) /\ cm_next m' = cm_next m /\ cm_head m' = cm_head m.
Proof.
  intros k Hk [_ Ho _ _]. revert m Ho Hk. generalize (w_head w). revert k. induction live as [|o live IH]; intros k h m Ho Hk.
  - destruct k; [|cbn [length] in Hk; lia]. exists m. cbn [firstn skipn rlist flat_map cmon_run]. rewrite Ho. auto.
  - destruct k as [|k].
    { exists m. cbn [firstn skipn rlist flat_map cmon_run]. rewrite Ho. replace (h + Z.of_nat 0) with h by lia. auto. }
    cbn [length] in Hk. cbn [firstn rlist flat_map]. rewrite cmon_run_app. cbn [outs] in Ho.
    set (m1 := {| cm_head := cm_head m; cm_next := cm_next m; cm_out := outs (h + 1) live |}).
    assert (E : cmon_run zmax m (revs o) = Some m1).
    { destruct o as [c|]; cbn [revs cmon_run cmon_step].
      - rewrite Ho. cbn [app]. now rewrite Z.eqb_refl.
      - f_equal. unfold m1. cbn [app] in Ho. rewrite <- Ho. now destruct m. }
    rewrite E. destruct (IH k (h + 1) m1 eq_refl ltac:(lia)) as (m' & R & O & N & H). exists m'. cbn [skipn]. rewrite O. cbn [m1 cm_next cm_head] in *.
    split; [exact R|]. split; [f_equal; lia|]. auto.
Qed.

Lemma J_flush_all max zmax m w live next : J max m w live -> w_tail w <= next < 2 ^ 64 -> cm_head m = w_head w ->
  exists w' e m', flush_all w next = Some (w', e) /\ cmon_run zmax m e = Some m' /\ JB max m' w' [] /\ w_head w' = next /\ w_tail w' = next.
Proof.
  intros [R Ho Hx Hd] Hn He. pose proof (rp_range _ _ _ R) as (R1 & R2 & R3). pose proof (zlen_nonneg live).
  destruct (flush_all_rep max w live next R ltac:(lia)) as (w' & F & R' & Hh & Ht).
  destruct (mon_readies max zmax w live m (length live) (le_n _) ltac:(now constructor)) as (m1 & M & O & N & D). rewrite firstn_all, skipn_all in *.
  cbn [outs] in O. destruct (Z.eqb_spec next (w_head w)) as [E|E].
  - rewrite app_nil_r in F. exists w', (rlist live), m1. split; [exact F|]. split; [exact M|]. split; [|auto]. split; [|congruence].
    constructor; [exact R'| | |]; rewrite ?Hh, ?Ht; [exact O| |]; lia.
  - exists w', (rlist live ++ [EHead next]), {| cm_head := next; cm_next := cm_next m1; cm_out := cm_out m1 |}.
    split; [exact F|]. split.
    { rewrite cmon_run_app, M. cbn [cmon_run cmon_step]. rewrite O. cbn [forallb]. destruct (Z.ltb_spec (cm_head m1) next); [reflexivity|lia]. }
    split; [|auto]. split; cbn [cm_head]; [|congruence]. constructor; cbn [cm_out cm_next cm_head]; [exact R'| | |]; rewrite ?Hh, ?Ht; [exact O| |]; lia.
Qed.

Lemma J_flush_until max zmax m w live t : JB max m w live -> 0 <= t < 2 ^ 64 ->
  exists w' e m' live', flush_until w t = Some (w', e) /\ cmon_run zmax m e = Some m' /\ JB max m' w' live' /\ w_head w' = Z.max (w_head w) t /\ stable w live w' live'.
Proof.
  intros [[R Ho Hx Hd] He] Ht. pose proof (rp_range _ _ _ R) as (R1 & R2 & R3). destruct (Z.ltb_spec (w_head w) t) as [L|L].
  - destruct (flush_until_rep max w live t R Ht L) as (k & w' & live' & F & R' & Hh & Hk & Hle & Hl & Cs).
    destruct (mon_readies max zmax w live m k Hk ltac:(now constructor)) as (m1 & M & O & N & D).
    exists w', (rlist (firstn k live) ++ [EHead t]), {| cm_head := t; cm_next := cm_next m1; cm_out := cm_out m1 |}, live'.
    assert (Ob : cm_out m1 = outs t live').
    { rewrite O, <- Hl. destruct Cs as [[Cs _]|(Cs & Ck & _)]; [now rewrite Cs|]. subst live' k. now rewrite skipn_all. }
    split; [exact F|]. split.
    { rewrite cmon_run_app, M. cbn [cmon_run cmon_step]. rewrite Ob, outs_forall; [|intros p Hp; lia].
      destruct (Z.ltb_spec (cm_head m1) t); [reflexivity|lia]. }
    split.
    { split; cbn [cm_head]; [|congruence]. constructor; cbn [cm_out cm_next cm_head]; [exact R'|now rewrite Hh| |lia].
      destruct Cs as [[_ ->]|(C1 & _ & ->)]; lia. }
    split; [lia|]. destruct Cs as [[C1 C2]|(C1 & C2 & C3)]; [subst live'; apply stable_skip; lia|apply stable_past; lia].
  - unfold flush_until. destruct (Z.ltb_spec (w_head w) t); [lia|]. exists w, [], m, live. split; [reflexivity|]. split; [reflexivity|].
    split; [split; [now constructor|exact He]|]. split; [lia|apply stable_refl].
Qed.

Lemma J_room max zmax m w live : JB max m w live ->
  exists w' e m' live', gc_room w = Some (w', e) /\ cmon_run zmax m e = Some m' /\ JB max m' w' live' /\ (length live' < max)%nat /\
    w_tail w' = w_tail w /\ w_head w <= w_head w' /\ w_tail w - Z.of_nat max < w_head w' /\
    (w_head w' = w_head w \/ w_tail w - w_head w = Z.of_nat max) /\ stable w live w' live'.
Proof.
  intros [[R Ho Hx Hd] He]. pose proof (rp_range _ _ _ R) as (R1 & R2 & R3). pose proof (rp_live _ _ _ R) as Rl.
  pose proof (rp_max _ _ _ R) as [Rm1 Rm2]. unfold zlen in R2. unfold gc_room, w_max.
  rewrite (rp_len _ _ _ R), u64_small by lia. destruct (Z.eqb_spec (w_tail w - w_head w) (Z.of_nat max)) as [E|E].
  - destruct live as [|o live]; cbn [length] in *; [lia|]. unfold flush_head_report.
    destruct (flush_head_rep max w o live R) as (w1 & F & R' & Hh & Ht). rewrite F.
    destruct (mon_readies max zmax w (o :: live) m 1 ltac:(cbn [length]; lia) ltac:(now constructor)) as (m1 & M & O & N & D).
    cbn [firstn rlist flat_map skipn] in M, O. rewrite app_nil_r in M. change (Z.of_nat 1) with 1 in O.
    exists w1, (revs o ++ [EHead (w_head w1)]), {| cm_head := w_head w1; cm_next := cm_next m1; cm_out := cm_out m1 |}, live.
    split; [reflexivity|]. split.
    { rewrite cmon_run_app, M. cbn [cmon_run cmon_step]. rewrite O, Hh, outs_forall; [|intros p Hp; lia].
      destruct (Z.ltb_spec (cm_head m1) (w_head w + 1)); [reflexivity|lia]. }
    split. { split; cbn [cm_head]; [|congruence]. constructor; cbn [cm_out cm_next cm_head]; [exact R'|now rewrite Hh| |]; lia. }
    split; [lia|]. split; [exact Ht|]. split; [lia|]. split; [lia|]. split; [right; exact E|].
    apply (stable_skip w (o :: live) w1 1); [exact Hh|lia].
  - exists w, [], m, live. split; [reflexivity|]. split; [reflexivity|]. split; [split; [now constructor|exact He]|].
    split; [lia|]. split; [reflexivity|]. split; [lia|]. split; [lia|]. split; [left; reflexivity|apply stable_refl].
Qed.

Lemma J_store max m w live o : JB max m w live -> (length live < max)%nat -> w_tail w < 2 ^ 63 ->
  exists w' m', gc_store w o = Some w' /\ cmon_step (Z.of_nat max) m (EAlloc (w_tail w) o) = Some m' /\ JB max m' w' (live ++ [o]) /\
    w_head w' = w_head w /\ w_tail w' = w_tail w + 1 /\ stable w live w' (live ++ [o]).
Proof.
  intros [[R Ho Hx Hd] He] Hl Ht. pose proof (rp_range _ _ _ R) as (R1 & R2 & R3). unfold zlen in R2.
  destruct (gc_store_rep max w live o R Hl Ht) as (w' & F & R' & Hh & Htt).
  eexists w', _. split; [exact F|]. split.
  { cbn [cmon_step]. rewrite Ho, outs_forall; [|intros p Hp; unfold zlen in Hp; lia].
    destruct (Z.leb_spec (cm_next m) (w_tail w)); [|lia]. destruct (Z.leb_spec (cm_head m) (w_tail w)); [|lia]. reflexivity. }
  split.
  { split; cbn [cm_head]; [|congruence]. constructor; cbn [cm_out cm_next cm_head]; [exact R'| | |]; rewrite ?Hh, ?Htt; [|lia|lia].
    rewrite outs_app. f_equal. cbn [outs]. rewrite app_nil_r. unfold zlen. rewrite <- R2. reflexivity. }
  split; [exact Hh|]. split; [exact Htt|]. repeat split; try lia. intros id Hi. rewrite Hh in *. rewrite app_nth1 by lia. reflexivity.
Qed.

Lemma J_gc_loop max id alloc : id < 2 ^ 63 -> forall n m w live, JB max m w live -> w_head w <= id -> id + 1 - w_tail w <= Z.of_nat n ->
  exists w' e m' live', gc_loop n w id alloc = Some (w', e) /\ cmon_run (Z.of_nat max) m e = Some m' /\ JB max m' w' live' /\
    w_head w <= w_head w' <= id /\ w_tail w' = Z.max (w_tail w) (id + 1) /\ stable w live w' live'.
Proof.
  intro Hid. induction n as [|n IH]; intros m w live Hj Hh Hf; cbn [gc_loop].
  - destruct (Z.leb_spec (w_tail w) id); [lia|]. exists w, [], m, live. split; [reflexivity|]. split; [reflexivity|]. split; [exact Hj|]. split; [lia|]. split; [lia|apply stable_refl].
  - destruct (Z.leb_spec (w_tail w) id) as [L|L].
    + destruct (J_room max (Z.of_nat max) m w live Hj) as (w1 & e1 & m1 & l1 & F1 & M1 & J1 & Hl1 & Ht1 & Hh1 & Hm1 & Hc1 & S1). rewrite F1.
      destruct (J_store max m1 w1 l1 (alloc (w_tail w1)) J1 Hl1 ltac:(lia)) as (w2 & m2 & F2 & M2 & J2 & Hh2 & Ht2 & S2). rewrite F2.
      assert (Hle : w_head w2 <= id).
      { pose proof (rp_range _ _ _ (j_rep _ _ _ _ (proj1 J1))) as (Q1 & Q2 & Q3). pose proof (zlen_nonneg l1). lia. }
      destruct (IH m2 w2 _ J2 Hle ltac:(lia)) as (w3 & e3 & m3 & l3 & F3 & M3 & J3 & Hh3 & Ht3 & S3). rewrite F3.
      exists w3, (e1 ++ EAlloc (w_tail w1) (alloc (w_tail w1)) :: e3), m3, l3. split; [reflexivity|]. split.
      { rewrite cmon_run_app, M1. cbn [cmon_run]. now rewrite M2. }
      split; [exact J3|]. split; [lia|]. split; [lia|]. exact (stable_trans _ _ _ _ _ _ S1 (stable_trans _ _ _ _ _ _ S2 S3)).
    + exists w, [], m, live. split; [reflexivity|]. split; [reflexivity|]. split; [exact Hj|]. split; [lia|]. split; [lia|apply stable_refl].
Qed.

Lemma J_gc_jump max zmax m w live id : JB max m w live -> w_head w <= id < 2 ^ 63 ->
  exists w' e m' live', gc_jump w id = Some (w', e) /\ cmon_run zmax m e = Some m' /\ JB max m' w' live' /\
    w_head w <= w_head w' <= id /\ id + 1 - w_tail w' <= Z.of_nat max /\ w_tail w <= w_tail w' <= Z.max (w_tail w) (id + 1) /\ stable w live w' live'.
Proof.
  intros Hj Hid. destruct Hj as [[R Ho Hx Hd] He]. pose proof (rp_range _ _ _ R) as (R1 & R2 & R3). pose proof (rp_max _ _ _ R) as [Rm1 Rm2].
  assert (H64 : 2 ^ 64 = 2 ^ 63 + 2 ^ 63) by reflexivity. pose proof (zlen_nonneg live).
  unfold gc_jump, w_max. rewrite (rp_len _ _ _ R). destruct (Z.leb_spec (w_tail w) id) as [L|L]; cbn [andb].
  - rewrite (u64_small (id - w_tail w)) by lia. destruct (Z.leb_spec (Z.of_nat max) (id - w_tail w)) as [L2|L2].
    + rewrite u64_small by lia.
      destruct (J_flush_all max zmax m w live (id - (Z.of_nat max - 1)) ltac:(now constructor) ltac:(lia) He) as (w' & e & m' & F & M & Jb & Hh & Ht).
      exists w', e, m', []. split; [exact F|]. split; [exact M|]. split; [exact Jb|]. split; [lia|]. split; [lia|]. split; [lia|]. apply stable_past; lia.
    + exists w, [], m, live. split; [reflexivity|]. split; [reflexivity|]. split; [split; [now constructor|exact He]|].
      split; [lia|]. split; [lia|]. split; [lia|apply stable_refl].
  - exists w, [], m, live. split; [reflexivity|]. split; [reflexivity|]. split; [split; [now constructor|exact He]|].
      split; [lia|]. split; [lia|]. split; [lia|apply stable_refl].
Qed.

(** get_chunk: never fails; obeys the monitor; returns the live chunk. *)
Lemma J_get_chunk max m w live id alloc : JB max m w live -> 0 <= id < 2 ^ 63 ->
  exists w' e m' live' o, get_chunk w id alloc = Some (w', e, o) /\ cmon_run (Z.of_nat max) m e = Some m' /\ JB max m' w' live' /\
    stable w live w' live' /\
    (id < w_head w -> w' = w /\ e = [] /\ o = None) /\
    (w_head w <= id -> w_head w' <= id < w_tail w' /\ o = nth (Z.to_nat (id - w_head w')) live' None).
Proof.
  intros Hj Hid. unfold get_chunk. destruct (Z.leb_spec 0 id); [|lia]. destruct (Z.ltb_spec id (2 ^ 63)); [|lia]. cbn [andb].
  destruct (Z.leb_spec (w_head w) id) as [L|L].
  - destruct (J_gc_jump max (Z.of_nat max) m w live id Hj ltac:(lia)) as (w1 & e1 & m1 & l1 & F1 & M1 & J1 & Hh1 & Hb1 & Ht1 & S1). rewrite F1.
    assert (Em : w_max w = max) by (unfold w_max; exact (rp_len _ _ _ (j_rep _ _ _ _ (proj1 Hj)))). rewrite Em.
    destruct (J_gc_loop max id alloc ltac:(lia) max m1 w1 l1 J1 ltac:(lia) ltac:(lia)) as (w2 & e2 & m2 & l2 & F2 & M2 & J2 & Hh2 & Ht2 & S2). rewrite F2.
    rewrite (chunk_pos_rep max w2 l2 id (j_rep _ _ _ _ (proj1 J2))) by lia.
    exists w2, (e1 ++ e2), m2, l2, (nth (Z.to_nat (id - w_head w2)) l2 None). split; [reflexivity|]. split; [now rewrite cmon_run_app, M1|].
    split; [exact J2|]. split; [exact (stable_trans _ _ _ _ _ _ S1 S2)|]. split; [intros; lia|]. intros _. split; [lia|reflexivity].
  - exists w, [], m, live, None. split; [reflexivity|]. split; [reflexivity|]. split; [exact Hj|]. split; [apply stable_refl|]. split; [auto|]. intros; lia.
Qed.

Lemma JB_new max : (0 < max)%nat -> Z.of_nat max < 2 ^ 63 -> JB max cmon0 (window_new max) [].
Proof.
  intros H1 H2. split; [|reflexivity]. constructor; [now apply rep_new|reflexivity| |]; cbn [cmon0 cm_next cm_head window_new w_tail w_head]; lia.
Qed.
