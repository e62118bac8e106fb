(** C30: chunk windows.  C31: placement of heaps in chunks. *)
From Coq Require Import ZArith List Bool Lia Sorted.
From Verif Require Import Base ConcBase ChunkModel ChunkSpec ChunkProofs.
Import ListNotations.
Open Scope Z_scope.

(** ** C30 *)
(** Chunk ids are non-negative int64_t; flush targets are uint64_t. *)
Definition wop_ok (o : wop) : Prop :=
  match o with WGet id _ => 0 <= id < 2 ^ 63 | WFlushUntil t => 0 <= t < 2 ^ 64 | WFlushAll => True end.

Lemma w_op_ok max m w live o : JB max m w live -> wop_ok o ->
  exists w' e m' live', w_op w o = Some (w', e) /\ cmon_run (Z.of_nat max) m e = Some m' /\ JB max m' w' live'.
Proof.
  intros Hj Ho. destruct o as [id alloc|t|]; cbn [w_op wop_ok] in *.
  - destruct (J_get_chunk max m w live id alloc Hj Ho) as (w' & e & m' & live' & r & F & M & J' & _).
    exists w', e, m', live'. rewrite F. auto.
  - destruct (J_flush_until max (Z.of_nat max) m w live t Hj Ho) as (w' & e & m' & live' & F & M & J' & _).
    exists w', e, m', live'. auto.
  - pose proof (rp_range _ _ _ (j_rep _ _ _ _ (proj1 Hj))) as (R1 & R2 & R3).
    destruct (J_flush_all max (Z.of_nat max) m w live u64_max (proj1 Hj) ltac:(unfold u64_max; lia) (proj2 Hj)) as (w' & e & m' & F & M & J' & _).
    exists w', e, m', []. auto.
Qed.
Lemma w_run_ok max : forall l m w live, JB max m w live -> Forall wop_ok l ->
  exists w' e m' live', w_run w l = Some (w', e) /\ cmon_run (Z.of_nat max) m e = Some m' /\ JB max m' w' live'.
Proof.
  induction l as [|o l IH]; intros m w live Hj Hf; cbn [w_run].
  - exists w, [], m, live. auto.
  - apply Forall_cons_iff in Hf as [Ho Hf].
    destruct (w_op_ok max m w live o Hj Ho) as (w1 & e1 & m1 & l1 & F & M & J1). rewrite F.
    destruct (IH m1 w1 l1 J1 Hf) as (w2 & e2 & m2 & l2 & F2 & M2 & J2). rewrite F2.
    exists w2, (e1 ++ e2), m2, l2. rewrite cmon_run_app, M. auto.
Qed.

(** The chunk held for an id. *)
Definition held (m : cmon) (id : Z) : option Z :=
  match find (fun p => fst p =? id) (cm_out m) with Some (_, c) => Some c | None => None end.

Lemma find_outs : forall l h id, find (fun p => fst p =? id) (outs h l) =
  match (if h <=? id then nth (Z.to_nat (id - h)) l None else None) with Some c => Some (id, c) | None => None end.
Proof.
  induction l as [|o l IH]; intros h id; cbn [outs find].
  - destruct (h <=? id); [|reflexivity]. now destruct (Z.to_nat (id - h)).
  - destruct (Z.leb_spec h id) as [L|L].
    + destruct (Z.eq_dec id h) as [->|N].
      * rewrite Z.sub_diag. cbn [Z.to_nat nth]. destruct o as [c|]; cbn [app find fst]; [now rewrite Z.eqb_refl|].
        rewrite IH. destruct (Z.leb_spec (h + 1) h); [lia|reflexivity].
      * replace (Z.to_nat (id - h)) with (S (Z.to_nat (id - (h + 1)))) by lia. cbn [nth].
        specialize (IH (h + 1) id). destruct (Z.leb_spec (h + 1) id); [|lia]. rewrite <- IH.
        destruct o as [c|]; cbn [app find fst]; [|reflexivity]. destruct (Z.eqb_spec h id); [lia|reflexivity].
    + specialize (IH (h + 1) id). destruct (Z.leb_spec (h + 1) id); [lia|]. rewrite <- IH.
      destruct o as [c|]; cbn [app find fst]; [|reflexivity]. destruct (Z.eqb_spec h id); [lia|reflexivity].
Qed.

(** Whatever the requests, flushes and stops, and whatever the allocator
    returns: no assert fails and no index leaves the storage; the whole log is
    accepted by the monitor (so at every moment the chunks held span at most
    [max] ids, the oldest is handed over first, and the head only advances, past
    no chunk still held); and in the end the window is a run of at most [max]
    ids starting at the last head reported, in which looking up an id gives
    exactly the chunk held for it. *)
Theorem C30_window : forall max ops, (0 < max)%nat -> Z.of_nat max < 2 ^ 63 -> Forall wop_ok ops ->
  exists w evs m, w_run (window_new max) ops = Some (w, evs) /\ cmon_run (Z.of_nat max) cmon0 evs = Some m /\
    w_head w = cm_head m /\ w_head w <= w_tail w <= w_head w + Z.of_nat max /\
    Forall (fun p => w_head w <= fst p < w_tail w) (cm_out m) /\
    forall id, 0 <= id < 2 ^ 63 -> get_const w id = Some (held m id).
Proof.
  intros max ops H1 H2 Hf. destruct (w_run_ok max ops cmon0 (window_new max) [] (JB_new max H1 H2) Hf) as (w & e & m & live & F & M & [[R O N D] E]).
  exists w, e, m. split; [exact F|]. split; [exact M|]. pose proof (rp_range _ _ _ R) as (R1 & R2 & R3). pose proof (rp_live _ _ _ R) as Rl.
  unfold zlen in R2. split; [congruence|]. split; [lia|]. split.
  - rewrite O. apply Forall_forall. intros p Hp. apply outs_range in Hp. unfold zlen in Hp. lia.
  - intros id Hid. rewrite (get_const_rep max w live id R Hid). f_equal. unfold held. rewrite O, find_outs.
    destruct (Z.leb_spec (w_head w) id); cbn [andb]; [|reflexivity]. destruct (Z.ltb_spec id (w_tail w)).
    + destruct (nth _ live None); reflexivity.
    + rewrite nth_overflow by lia. reflexivity.
Qed.
Print Assumptions C30_window.

(** In terms of the log alone: the ids asked of the allocator increase strictly;
    the chunks made ready are, in order, the first ones obtained, so each is
    made ready at most once; the rest are still held; the reported heads
    increase strictly. *)
Theorem C30_order : forall max ops w evs, (0 < max)%nat -> Z.of_nat max < 2 ^ 63 -> Forall wop_ok ops ->
  w_run (window_new max) ops = Some (w, evs) ->
  StronglySorted Z.lt (alloc_ids evs) /\ StronglySorted Z.lt (heads evs) /\ w_head w = last (heads evs) 0 /\
  exists rest, map snd (allocs evs) = readies evs ++ rest /\ (length rest <= max)%nat.
Proof.
  intros max ops w evs H1 H2 Hf Hr. destruct (w_run_ok max ops cmon0 (window_new max) [] (JB_new max H1 H2) Hf) as (w' & e & m & live & F & M & [[R O N D] E]).
  rewrite F in Hr. injection Hr as -> ->. pose proof (cmon_ids _ _ _ _ M) as [I1 _]. pose proof (cmon_heads _ _ _ _ M) as (I2 & _ & I3).
  split; [exact I1|]. split; [exact I2|]. split; [rewrite <- E; exact I3|]. exists (map snd (cm_out m)). split; [exact (cmon_handover _ _ _ _ M)|].
  rewrite map_length, O. pose proof (rp_live _ _ _ R) as Rl. enough (forall l h, (length (outs h l) <= length l)%nat) by (specialize (H live (w_head w)); lia).
  clear. induction l as [|o l IH]; intro h; cbn [outs length]; [lia|]. rewrite app_length. specialize (IH (h + 1)). destruct o; cbn [length]; lia.
Qed.
Print Assumptions C30_order.

(** After a stop every chunk obtained has been made ready, exactly once. *)
Theorem C30_stop : forall max ops w evs, (0 < max)%nat -> Z.of_nat max < 2 ^ 63 -> Forall wop_ok ops ->
  w_run (window_new max) (ops ++ [WFlushAll]) = Some (w, evs) ->
  readies evs = map snd (allocs evs) /\ w_head w = u64_max /\ w_tail w = u64_max.
Proof.
  intros max ops w evs H1 H2 Hf Hr.
  assert (X : forall l w0 w2 e2, w_run w0 (l ++ [WFlushAll]) = Some (w2, e2) -> exists w1 e1 e', w_run w0 l = Some (w1, e1) /\ flush_all w1 u64_max = Some (w2, e') /\ e2 = e1 ++ e').
  { induction l as [|o l IH]; intros w0 w2 e2 H; cbn [app w_run w_op] in H.
    - destruct (flush_all w0 u64_max) as [[w1 e1]|] eqn:E; [|discriminate]. injection H as <- <-. exists w0, [], e1. cbn [w_run]. rewrite app_nil_r. auto.
    - destruct (w_op w0 o) as [[w1 e1]|] eqn:E; [|discriminate]. destruct (w_run w1 (l ++ [WFlushAll])) as [[w3 e3]|] eqn:E3; [|discriminate].
      injection H as <- <-. destruct (IH _ _ _ E3) as (wa & ea & e' & A & B & ->). exists wa, (e1 ++ ea), e'. cbn [w_run]. rewrite E, A, app_assoc. auto. }
  destruct (X _ _ _ _ Hr) as (w1 & e1 & e' & A & B & ->).
  destruct (w_run_ok max ops cmon0 (window_new max) [] (JB_new max H1 H2) Hf) as (w1' & e1' & m & live & F & M & J1).
  rewrite F in A. injection A as -> ->. pose proof (rp_range _ _ _ (j_rep _ _ _ _ (proj1 J1))) as (R1 & R2 & R3).
  destruct (J_flush_all max (Z.of_nat max) m w1 live u64_max (proj1 J1) ltac:(unfold u64_max; lia) (proj2 J1)) as (w' & e & m' & F' & M' & J' & Hh & Ht).
  rewrite F' in B. injection B as -> ->. split; [|auto].
  assert (Q : cmon_run (Z.of_nat max) cmon0 (e1 ++ e') = Some m') by (rewrite cmon_run_app, M; exact M').
  apply cmon_handover in Q. cbn [cmon0 cm_out map app] in Q. rewrite (j_out _ _ _ _ (proj1 J')) in Q. cbn [outs map] in Q. rewrite app_nil_r in Q. now symmetry.
Qed.
Print Assumptions C30_stop.

(** A window of 3 chunks: fill, advance (the storage wraps), a jump ahead, a
    request behind the window, a flush to a target, a null allocation, a stop. *)
Definition ex_alloc (id : Z) : option Z := if id =? 3 then None else Some (100 + id).
Definition ex_wops : list wop :=
  [WGet 1 ex_alloc; WGet 4 ex_alloc; WGet 2 ex_alloc; WGet 0 ex_alloc; WGet 20 ex_alloc; WFlushUntil 19; WGet 21 ex_alloc; WFlushUntil 3; WFlushUntil 30; WGet 29 ex_alloc; WGet 30 ex_alloc].
Example ex_wops_ok : Forall wop_ok (ex_wops ++ [WFlushAll]).
Proof. repeat constructor; cbn [wop_ok]; try lia. Qed.
Example C30_ex : exists w evs, w_run (window_new 3) (ex_wops ++ [WFlushAll]) = Some (w, evs) /\
  readies evs = [100; 101; 102; 104; 118; 119; 120; 121; 130] /\ heads evs = [1; 2; 18; 19; 30; u64_max] /\ alloc_ids evs = [0; 1; 2; 3; 4; 18; 19; 20; 21; 30].
Proof. eexists _, _. split; [vm_compute; reflexivity|]. repeat split. Qed.

(** ** C31 *)
(** Sequences of operations that refer to heaps placed before ([n] so far); the
    place function returns an int64_t. *)
Fixpoint cops_ok (n : nat) (l : list cop) : Prop :=
  match l with
  | [] => True
  | CPlace p _ :: l' => - 2 ^ 63 <= pl_chunk_id p < 2 ^ 63 /\ cops_ok (S n) l'
  | CMemcpy i _ _ :: l' | CHeapReady i _ :: l' => (i < n)%nat /\ cops_ok n l'
  | CFlush :: l' => cops_ok n l'
  end.
Definition nplaces (l : list cop) : nat := length (filter (fun o => match o with CPlace _ _ => true | _ => false end) l).

(** Metadata of a heap: nothing, or the chunk its id had, which is in the
    window still or has been passed by the head. *)
Definition md_ok (w : window) (live : list (option Z)) (m : meta) : Prop :=
  (md_chunk m = None /\ md_chunk_id m = -1) \/
  exists c, md_chunk m = Some c /\ 0 <= md_chunk_id m < 2 ^ 63 /\ md_chunk_id m < w_tail w /\
    (w_head w <= md_chunk_id m -> nth (Z.to_nat (md_chunk_id m - w_head w)) live None = Some c).
Record K (max : nat) (m : cmon) (s : cstream) (live : list (option Z)) : Prop := {
  k_win : JB max m (cs_win s) live; k_md : Forall (md_ok (cs_win s) live) (cs_heaps s) }.

Lemma md_ok_stable w l w' l' md : stable w l w' l' -> md_ok w l md -> md_ok w' l' md.
Proof.
  intros (S1 & S2 & S3) [H|(c & H1 & H2 & H3 & H4)]; [now left|right]. exists c. split; [exact H1|]. split; [exact H2|]. split; [lia|].
  intro L. rewrite S3 by lia. apply H4. lia.
Qed.

Lemma is_out_held max m w live id c : J max m w live -> w_head w <= id -> nth (Z.to_nat (id - w_head w)) live None = Some c -> is_out m id c = true.
Proof.
  intros Hj L H. unfold is_out. apply existsb_exists. exists (id, c). split; [|cbn [fst snd]; rewrite !Z.eqb_refl; reflexivity].
  rewrite (j_out _ _ _ _ Hj). apply outs_in. exists (Z.to_nat (id - w_head w)). split; [|lia].
  destruct (nth_error live (Z.to_nat (id - w_head w))) as [o|] eqn:E.
  - f_equal. rewrite <- H. symmetry. now apply nth_error_nth.
  - apply nth_error_None in E. rewrite nth_overflow in H by exact E. discriminate.
Qed.
Lemma held_nth max m w live id : J max m w live -> held m id = if w_head w <=? id then nth (Z.to_nat (id - w_head w)) live None else None.
Proof.
  intro Hj. unfold held. rewrite (j_out _ _ _ _ Hj), find_outs. destruct (w_head w <=? id); [|reflexivity]. now destruct (nth _ live None).
Qed.
Lemma touch_ok zmax m id c l : is_out m id c = true -> Forall (fun e => (exists off len, e = EWrite id c off len) \/ (exists ix, e = EPresent id c ix) \/ e = EExtra id c) l -> cmon_run zmax m l = Some m.
Proof.
  intro H. induction 1 as [|e l Hx _ IH]; [reflexivity|]. cbn [cmon_run].
  destruct Hx as [(off & len & ->)|[(ix & ->)| ->]]; cbn [cmon_step]; rewrite H; exact IH.
Qed.

Lemma K_place max m s live p alloc : K max m s live -> - 2 ^ 63 <= pl_chunk_id p < 2 ^ 63 ->
  exists s' e m' live' md, cs_place s p alloc = Some (s', e) /\ cmon_run (Z.of_nat max) m e = Some m' /\ K max m' s' live' /\ cs_heaps s' = cs_heaps s ++ [md] /\ stable (cs_win s) live (cs_win s') live' /\ cs_divide s' = cs_divide s /\
    md = match held m' (pl_chunk_id p) with
         | Some c => {| md_chunk_id := pl_chunk_id p; md_index := pl_index p; md_offset := pl_offset p; md_chunk := Some c |}
         | None => no_meta
         end.
Proof.
  intros [Kw Km] Hp. pose proof (rp_range _ _ _ (j_rep _ _ _ _ (proj1 Kw))) as (R1 & R2 & R3).
  unfold cs_place, chunk_too_old. destruct (Z.ltb_spec (pl_chunk_id p) 0) as [L0|L0]; [|destruct (Z.ltb_spec (pl_chunk_id p) (w_head (cs_win s))) as [L1|L1]]; cbn [orb].
  1,2: eexists _, [], m, live, no_meta; (split; [reflexivity|]); (split; [reflexivity|]); cbn [cs_heaps cs_win cs_divide];
    (split; [constructor; cbn [cs_win cs_heaps]; [exact Kw|]; apply Forall_app; split; [exact Km|]; constructor; [left; split; reflexivity|constructor]|]);
    (split; [reflexivity|]); (split; [apply stable_refl|]); (split; [reflexivity|]);
    rewrite (held_nth max m _ live _ (proj1 Kw)); (destruct (Z.leb_spec (w_head (cs_win s)) (pl_chunk_id p)); [lia|reflexivity]).
  destruct (J_get_chunk max m (cs_win s) live (pl_chunk_id p) alloc Kw ltac:(lia)) as (w' & e & m' & live' & o & F & M & J' & S' & _ & G). rewrite F.
  destruct (G L1) as [G1 G2]. clear G. pose proof (held_nth max m' _ live' (pl_chunk_id p) (proj1 J')) as Hh.
  destruct (Z.leb_spec (w_head w') (pl_chunk_id p)) as [L2|L2]; [|lia]. rewrite <- G2 in Hh.
  eexists _, _, m', live', _. split; [reflexivity|]. split.
  - rewrite cmon_run_app, M. destruct o as [c|]; [|reflexivity]. apply (touch_ok _ m' (pl_chunk_id p) c).
    + apply (is_out_held max m' w' live'); [exact (proj1 J')|lia|now symmetry].
    + destruct (0 <? pl_extra_size p); [|constructor]. constructor; [right; right; reflexivity|constructor].
  - cbn [cs_heaps cs_win cs_divide]. split.
    + constructor; cbn [cs_win cs_heaps]; [exact J'|]. apply Forall_app. split; [eapply Forall_impl; [|exact Km]; intro; now apply md_ok_stable|].
      constructor; [|constructor]. destruct o as [c|]; [right|left; split; reflexivity]. exists c. cbn [md_chunk md_chunk_id].
      split; [reflexivity|]. split; [lia|]. split; [lia|]. intros _. now symmetry.
    + split; [reflexivity|]. split; [exact S'|]. split; [reflexivity|]. rewrite Hh. now destruct o.
Qed.

(** Copying a packet and finishing a heap, in terms of the heap's metadata. *)
Lemma K_memcpy max m s live i off len md : K max m s live -> nth_error (cs_heaps s) i = Some md ->
  cs_memcpy s i off len = Some (s, match md_chunk md, held m (md_chunk_id md) with
      | Some c, Some _ => EWrite (md_chunk_id md) c (md_offset md + off) len ::
                          if cs_divide s =? 0 then [] else [EPresent (md_chunk_id md) c (md_index md + off / cs_divide s)]
      | _, _ => [] end) /\
  (forall c c', md_chunk md = Some c -> held m (md_chunk_id md) = Some c' -> c' = c /\ is_out m (md_chunk_id md) c = true).
Proof.
  intros [Kw Km] H. assert (Hm : md_ok (cs_win s) live md) by (rewrite Forall_forall in Km; apply Km; eapply nth_error_In; exact H).
  unfold cs_memcpy. rewrite H. pose proof (rp_range _ _ _ (j_rep _ _ _ _ (proj1 Kw))) as (R1 & R2 & R3).
  unfold chunk_too_old. rewrite (held_nth max m _ live _ (proj1 Kw)). destruct Hm as [[H1 H2]|(c & H1 & H2 & H3 & H4)].
  - rewrite H1, H2. destruct (Z.ltb_spec (-1) 0); [|lia]. split; [reflexivity|]. intros c c' X. discriminate.
  - rewrite H1. destruct (Z.ltb_spec (md_chunk_id md) 0); [lia|]. cbn [orb]. destruct (Z.ltb_spec (md_chunk_id md) (w_head (cs_win s))) as [L|L];
    destruct (Z.leb_spec (w_head (cs_win s)) (md_chunk_id md)); try lia.
    + split; [reflexivity|]. intros c1 c' _ X. discriminate.
    + rewrite H4 by lia. split; [reflexivity|]. intros c1 c' [= <-] [= <-]. split; [reflexivity|]. apply (is_out_held max m (cs_win s) live); [exact (proj1 Kw)|lia|auto].
Qed.
Lemma K_heap_ready max m s live i md : K max m s live -> nth_error (cs_heaps s) i = Some md ->
  cs_heap_ready s i true = Some (match md_chunk md, held m (md_chunk_id md) with
      | Some _, None => {| cs_win := cs_win s; cs_heaps := cs_heaps s; cs_too_old := u64 (cs_too_old s + 1); cs_rejected := cs_rejected s; cs_divide := cs_divide s |}
      | _, _ => s end, match md_chunk md, held m (md_chunk_id md) with
      | Some c, Some _ => if cs_divide s =? 0 then [EPresent (md_chunk_id md) c (md_index md)] else []
      | _, _ => [] end).
Proof.
  intros [Kw Km] H. assert (Hm : md_ok (cs_win s) live md) by (rewrite Forall_forall in Km; apply Km; eapply nth_error_In; exact H).
  unfold cs_heap_ready. rewrite H. pose proof (rp_range _ _ _ (j_rep _ _ _ _ (proj1 Kw))) as (R1 & R2 & R3).
  unfold chunk_too_old. rewrite (held_nth max m _ live _ (proj1 Kw)). destruct Hm as [[H1 H2]|(c & H1 & H2 & H3 & H4)].
  - now rewrite H1.
  - rewrite H1. destruct (Z.ltb_spec (md_chunk_id md) 0); [lia|]. cbn [orb]. destruct (Z.ltb_spec (md_chunk_id md) (w_head (cs_win s))) as [L|L];
    destruct (Z.leb_spec (w_head (cs_win s)) (md_chunk_id md)); try lia; [reflexivity|].
    rewrite H4 by lia. destruct (cs_divide s =? 0); reflexivity.
Qed.

Lemma K_op max m s live o : K max m s live -> cops_ok (length (cs_heaps s)) [o] ->
  exists s' e m' live', cs_op s o = Some (s', e) /\ cmon_run (Z.of_nat max) m e = Some m' /\ K max m' s' live' /\ stable (cs_win s) live (cs_win s') live' /\
    cs_divide s' = cs_divide s /\ exists new, cs_heaps s' = cs_heaps s ++ new /\ length new = nplaces [o].
Proof.
  intros Hk Ho. destruct o as [p alloc|i off len|i [|]|]; cbn [cs_op cops_ok] in *.
  - destruct (K_place max m s live p alloc Hk (proj1 Ho)) as (s' & e & m' & live' & md & F & M & K' & Hp & S' & D & _).
    exists s', e, m', live'. split; [exact F|]. split; [exact M|]. split; [exact K'|]. split; [exact S'|]. split; [exact D|]. exists [md]. split; [exact Hp|reflexivity].
  - destruct (nth_error (cs_heaps s) i) as [md|] eqn:E; [|apply nth_error_None in E; lia].
    destruct (K_memcpy max m s live i off len md Hk E) as [F G]. eexists s, _, m, live. split; [exact F|]. split.
    + destruct (md_chunk md) as [c|]; [|reflexivity]. destruct (held m (md_chunk_id md)) as [c'|]; [|reflexivity].
      destruct (G c c' eq_refl eq_refl) as [_ G2]. apply (touch_ok _ m (md_chunk_id md) c); [exact G2|].
      constructor; [left; eauto|]. destruct (cs_divide s =? 0); [constructor|]. constructor; [right; left; eauto|constructor].
    + split; [exact Hk|]. split; [apply stable_refl|]. split; [reflexivity|]. exists []. rewrite app_nil_r. auto.
  - destruct (nth_error (cs_heaps s) i) as [md|] eqn:E; [|apply nth_error_None in E; lia].
    pose proof (K_heap_ready max m s live i md Hk E) as F. destruct (K_memcpy max m s live i 0 0 md Hk E) as [_ G].
    eexists _, _, m, live. split; [exact F|]. split.
    + destruct (md_chunk md) as [c|]; [|reflexivity]. destruct (held m (md_chunk_id md)) as [c'|]; [|reflexivity].
      destruct (G c c' eq_refl eq_refl) as [_ G2]. apply (touch_ok _ m (md_chunk_id md) c); [exact G2|].
      destruct (cs_divide s =? 0); [|constructor]. constructor; [right; left; eauto|constructor].
    + destruct Hk as [Kw Km]. split; [|split; [|split]].
      * destruct (md_chunk md), (held m (md_chunk_id md)); now constructor.
      * destruct (md_chunk md), (held m (md_chunk_id md)); apply stable_refl.
      * destruct (md_chunk md), (held m (md_chunk_id md)); reflexivity.
      * exists []. rewrite app_nil_r. destruct (md_chunk md), (held m (md_chunk_id md)); auto.
  - exists s, [], m, live. unfold cs_heap_ready. destruct (nth_error (cs_heaps s) i) as [md|] eqn:E; [|apply nth_error_None in E; lia].
    split; [reflexivity|]. split; [reflexivity|]. split; [exact Hk|]. split; [apply stable_refl|]. split; [reflexivity|]. exists []. rewrite app_nil_r. auto.
  - destruct Hk as [Kw Km]. pose proof (rp_range _ _ _ (j_rep _ _ _ _ (proj1 Kw))) as (R1 & R2 & R3). pose proof (zlen_nonneg live).
    destruct (J_flush_all max (Z.of_nat max) m (cs_win s) live u64_max (proj1 Kw) ltac:(unfold u64_max; lia) (proj2 Kw)) as (w' & e & m' & F & M & J' & Hh & Ht).
    assert (S' : stable (cs_win s) live w' []) by (apply stable_past; unfold u64_max in *; lia).
    unfold cs_flush. rewrite F. eexists _, _, m', []. split; [reflexivity|]. split; [exact M|]. cbn [cs_win cs_heaps cs_divide]. split.
    { constructor; cbn [cs_win cs_heaps]; [exact J'|]. eapply Forall_impl; [|exact Km]. intro. now apply md_ok_stable. }
    split; [exact S'|]. split; [reflexivity|]. exists []. rewrite app_nil_r. auto.
Qed.

Lemma cops_ok_app l1 : forall n l2, cops_ok n (l1 ++ l2) <-> cops_ok n l1 /\ cops_ok (n + nplaces l1) l2.
Proof.
  induction l1 as [|o l1 IH]; intros n l2; cbn [app cops_ok].
  - cbn [nplaces filter length]. rewrite Nat.add_0_r. tauto.
  - unfold nplaces in *. destruct o; cbn [filter length]; rewrite IH; rewrite ?Nat.add_succ_r, ?Nat.add_succ_l; tauto.
Qed.

Lemma K_run max : forall l m s live, K max m s live -> cops_ok (length (cs_heaps s)) l ->
  exists s' e m' live', cs_run s l = Some (s', e) /\ cmon_run (Z.of_nat max) m e = Some m' /\ K max m' s' live' /\ stable (cs_win s) live (cs_win s') live' /\
    cs_divide s' = cs_divide s /\ exists new, cs_heaps s' = cs_heaps s ++ new /\ length new = nplaces l.
Proof.
  induction l as [|o l IH]; intros m s live Hk Ho; cbn [cs_run].
  - exists s, [], m, live. split; [reflexivity|]. split; [reflexivity|]. split; [exact Hk|]. split; [apply stable_refl|]. split; [reflexivity|]. exists []. rewrite app_nil_r. auto.
  - change (o :: l) with ([o] ++ l) in Ho. apply cops_ok_app in Ho as [Ho1 Ho2].
    destruct (K_op max m s live o Hk Ho1) as (s1 & e1 & m1 & l1 & F1 & M1 & K1 & S1 & D1 & n1 & N1 & Q1). rewrite F1.
    rewrite <- Q1, <- app_length, <- N1 in Ho2. destruct (IH m1 s1 l1 K1 Ho2) as (s2 & e2 & m2 & l2 & F2 & M2 & K2 & S2 & D2 & n2 & N2 & Q2). rewrite F2.
    exists s2, (e1 ++ e2), m2, l2. split; [reflexivity|]. split; [now rewrite cmon_run_app, M1|]. split; [exact K2|].
    split; [exact (stable_trans _ _ _ _ _ _ S1 S2)|]. split; [congruence|]. exists (n1 ++ n2). rewrite N2, N1, app_assoc. split; [reflexivity|].
    rewrite app_length, Q1, Q2. unfold nplaces. change (o :: l) with ([o] ++ l). rewrite filter_app, app_length. reflexivity.
Qed.

Lemma cs_run_app l1 : forall s l2, cs_run s (l1 ++ l2) = match cs_run s l1 with None => None | Some (s1, e1) =>
  match cs_run s1 l2 with None => None | Some (s2, e2) => Some (s2, e1 ++ e2) end end.
Proof.
  induction l1 as [|o l1 IH]; intros s l2; cbn [app cs_run].
  - destruct (cs_run s l2) as [[s2 e2]|]; reflexivity.
  - destruct (cs_op s o) as [[s1 e1]|]; [|reflexivity]. rewrite IH. destruct (cs_run s1 l1) as [[s2 e2]|]; [|reflexivity].
    destruct (cs_run s2 l2) as [[s3 e3]|]; [|reflexivity]. now rewrite app_assoc.
Qed.
Lemma K_new max divide : (0 < max)%nat -> Z.of_nat max < 2 ^ 63 -> K max cmon0 (cstream_new max divide) [].
Proof. intros H1 H2. constructor; cbn [cstream_new cs_win cs_heaps]; [now apply JB_new|constructor]. Qed.

(** Whatever heaps are placed where, whatever packets of them arrive and
    whenever the stream stops: nothing fails, and every access to a chunk
    (payload, presence flag, extra data) is to a chunk obtained for the heap's
    chunk id and not yet made ready.  In particular a chunk that was made ready
    and then recycled by the allocator under a later id is not touched on behalf
    of the old one. *)
Theorem C31_safe : forall max divide ops, (0 < max)%nat -> Z.of_nat max < 2 ^ 63 -> cops_ok 0 ops ->
  exists s evs m, cs_run (cstream_new max divide) ops = Some (s, evs) /\ cmon_run (Z.of_nat max) cmon0 evs = Some m.
Proof.
  intros max divide ops H1 H2 Ho. destruct (K_run max ops cmon0 _ [] (K_new max divide H1 H2) Ho) as (s & e & m & live & F & M & _). eauto.
Qed.
Print Assumptions C31_safe.

(** A packet of a heap is copied to the chunk that was in the window when the
    heap was placed, at the offset chosen by the place function, for as long as
    that chunk is held; otherwise nothing is written.  When the heap completes,
    its presence flag is set in that chunk if it is still held, and else the
    heap is counted as too old. *)
Theorem C31_payload : forall max divide ops1 p alloc ops2 s1 e1 m1 s2 e2 m2,
  (0 < max)%nat -> Z.of_nat max < 2 ^ 63 -> cops_ok 0 (ops1 ++ CPlace p alloc :: ops2) ->
  cs_run (cstream_new max divide) (ops1 ++ [CPlace p alloc]) = Some (s1, e1) -> cmon_run (Z.of_nat max) cmon0 e1 = Some m1 ->
  cs_run s1 ops2 = Some (s2, e2) -> cmon_run (Z.of_nat max) m1 e2 = Some m2 ->
  let i := nplaces ops1 in let id := pl_chunk_id p in
  (forall off len, cs_memcpy s2 i off len = Some (s2,
     match held m1 id, held m2 id with
     | Some c, Some _ => EWrite id c (pl_offset p + off) len :: if divide =? 0 then [] else [EPresent id c (pl_index p + off / divide)]
     | _, _ => []
     end)) /\
  (exists s3, cs_heap_ready s2 i true = Some (s3,
     match held m1 id, held m2 id with
     | Some c, Some _ => if divide =? 0 then [EPresent id c (pl_index p)] else []
     | _, _ => []
     end) /\
     cs_too_old s3 = match held m1 id, held m2 id with Some _, None => u64 (cs_too_old s2 + 1) | _, _ => cs_too_old s2 end /\
     cs_rejected s3 = cs_rejected s2 /\ cs_win s3 = cs_win s2) /\
  (forall c c', held m1 id = Some c -> held m2 id = Some c' -> c' = c).
Proof.
  intros max divide ops1 p alloc ops2 s1 e1 m1 s2 e2 m2 H1 H2 Ho Hr1 Hm1 Hr2 Hm2 i id.
  apply cops_ok_app in Ho as [Ho1 Ho2]. destruct Ho2 as [Hp Ho2]. fold id in Hp.
  destruct (K_run max ops1 cmon0 _ [] (K_new max divide H1 H2) Ho1) as (s0 & e0 & m0 & l0 & F0 & M0 & K0 & _ & D0 & n0 & N0 & Q0).
  cbn [cstream_new cs_heaps cs_divide app] in N0, D0. rewrite cs_run_app, F0 in Hr1. cbn [cs_run cs_op] in Hr1.
  destruct (K_place max m0 s0 l0 p alloc K0 Hp) as (s1' & e1' & m1' & l1 & md0 & F1 & M1 & K1 & N1 & _ & D1 & Hmd). rewrite F1 in Hr1. injection Hr1 as <- <-.
  rewrite app_nil_r, cmon_run_app, M0, M1 in Hm1. injection Hm1 as <-.
  assert (Ho2' : cops_ok (length (cs_heaps s1')) ops2).
  { rewrite N1, N0, app_length, Q0. cbn [length]. now rewrite Nat.add_1_r. }
  destruct (K_run max ops2 m1' s1' l1 K1 Ho2') as (s2' & e2' & m2' & l2 & F2 & M2 & K2 & S2 & D2 & n2 & N2 & _).
  rewrite F2 in Hr2. injection Hr2 as -> ->. rewrite M2 in Hm2. injection Hm2 as ->.
  assert (Hi : nth_error (cs_heaps s2) i = Some (match held m1' id with Some c => {| md_chunk_id := id; md_index := pl_index p; md_offset := pl_offset p; md_chunk := Some c |} | None => no_meta end)).
  { fold id in Hmd. rewrite N2, N1, N0, <- Hmd, <- app_assoc. unfold i. rewrite nth_error_app2 by lia. rewrite Q0, Nat.sub_diag. reflexivity. }
  assert (Ed : cs_divide s2 = divide) by congruence.
  destruct (held m1' id) as [c|] eqn:Eh.
  - split; [|split].
    + intros off len. pose proof (proj1 (K_memcpy max m2 s2 l2 i off len _ K2 Hi)) as X. cbn [md_chunk md_chunk_id md_offset md_index] in X. rewrite Ed in X. exact X.
    + pose proof (K_heap_ready max m2 s2 l2 i _ K2 Hi) as X. cbn [md_chunk md_chunk_id md_offset md_index] in X. rewrite Ed in X.
      eexists. split; [exact X|]. destruct (held m2 id); cbn [cs_too_old cs_rejected cs_win]; auto.
    + intros c1 c' [= <-] Hc'. exact (proj1 (proj2 (K_memcpy max m2 s2 l2 i 0 0 _ K2 Hi) c c' eq_refl Hc')).
  - split; [|split].
    + intros off len. exact (proj1 (K_memcpy max m2 s2 l2 i off len _ K2 Hi)).
    + pose proof (K_heap_ready max m2 s2 l2 i _ K2 Hi) as X. cbn [md_chunk no_meta] in X. exists s2. split; [exact X|]. auto.
    + intros c1 c' X. discriminate.
Qed.
Print Assumptions C31_payload.

(** Placing a heap: behind the window it is counted as too old and discarded,
    with a negative id as rejected; nothing else happens.  Otherwise neither
    counter changes, and the heap's chunk id is in the window afterwards. *)
Theorem C31_place : forall max divide ops s evs p alloc, (0 < max)%nat -> Z.of_nat max < 2 ^ 63 -> cops_ok 0 (ops ++ [CPlace p alloc]) ->
  cs_run (cstream_new max divide) ops = Some (s, evs) ->
  let id := pl_chunk_id p in let head := last (heads evs) 0 in
  exists s' e, cs_place s p alloc = Some (s', e) /\
    (id < 0 -> e = [] /\ cs_rejected s' = u64 (cs_rejected s + 1) /\ cs_too_old s' = cs_too_old s) /\
    (0 <= id < head -> e = [] /\ cs_too_old s' = u64 (cs_too_old s + 1) /\ cs_rejected s' = cs_rejected s) /\
    (head <= id -> 0 <= id -> cs_too_old s' = cs_too_old s /\ cs_rejected s' = cs_rejected s /\ last (heads (evs ++ e)) 0 <= id < w_tail (cs_win s')).
Proof.
  intros max divide ops s evs p alloc H1 H2 Ho Hr id head. apply cops_ok_app in Ho as [Ho1 [Hp _]]. fold id in Hp.
  destruct (K_run max ops cmon0 _ [] (K_new max divide H1 H2) Ho1) as (s0 & e0 & m0 & l0 & F0 & M0 & K0 & _). rewrite F0 in Hr. injection Hr as -> ->.
  destruct (K_place max m0 s l0 p alloc K0 Hp) as (s1 & e1 & m1 & l1 & md0 & F1 & M1 & K1 & _). exists s1, e1. split; [exact F1|].
  assert (Eh : head = w_head (cs_win s)).
  { rewrite <- (proj2 (k_win _ _ _ _ K0)). symmetry. exact (proj2 (proj2 (cmon_heads _ _ _ _ M0))). }
  assert (Eh' : last (heads (evs ++ e1)) 0 = w_head (cs_win s1)).
  { rewrite <- (proj2 (k_win _ _ _ _ K1)). symmetry.
    assert (Q : cmon_run (Z.of_nat max) cmon0 (evs ++ e1) = Some m1) by (rewrite cmon_run_app, M0; exact M1).
    exact (proj2 (proj2 (cmon_heads _ _ _ _ Q))). }
  rewrite Eh, Eh'. clear Eh Eh'. pose proof (rp_range _ _ _ (j_rep _ _ _ _ (proj1 (k_win _ _ _ _ K0)))) as (R1 & R2 & R3).
  unfold cs_place, chunk_too_old in F1. fold id in F1. destruct (Z.ltb_spec id 0) as [L0|L0]; [|destruct (Z.ltb_spec id (w_head (cs_win s))) as [L1|L1]]; cbn [orb] in F1.
  - destruct (Z.leb_spec 0 id); [lia|]. injection F1 as <- <-. cbn [cs_rejected cs_too_old]. repeat split; intros; lia.
  - destruct (Z.leb_spec 0 id); [|lia]. injection F1 as <- <-. cbn [cs_rejected cs_too_old]. repeat split; intros; lia.
  - destruct (J_get_chunk max m0 (cs_win s) l0 id alloc (k_win _ _ _ _ K0) ltac:(lia)) as (w' & e & m' & live' & o & F & M & J' & S' & _ & G). rewrite F in F1.
    injection F1 as <- <-. cbn [cs_too_old cs_rejected cs_win]. split; [intros; lia|]. split; [intros; lia|]. intros _ _. split; [reflexivity|]. split; [reflexivity|]. apply G. exact L1.
Qed.
Print Assumptions C31_place.

(** Two chunks; heap 0 goes to chunk 0, heap 1 to chunk 5 (so chunk 0 is made
    ready and its handle recycled for chunk 4), heap 2 is too old, heap 3 is
    rejected; late packets of heap 0 are dropped and it is counted as too old. *)
Definition ex_place (id : Z) : placement := {| pl_chunk_id := id; pl_index := 3; pl_offset := 1000; pl_extra_size := 8 |}.
Definition ex_calloc (id : Z) : option Z := Some (100 + id mod 2).
Definition ex_cops : list cop :=
  [CPlace (ex_place 0) ex_calloc; CMemcpy 0 0 64; CPlace (ex_place 5) ex_calloc; CMemcpy 0 64 64; CMemcpy 1 64 64; CPlace (ex_place 2) ex_calloc;
   CMemcpy 2 0 64; CPlace (ex_place (-7)) ex_calloc; CMemcpy 3 0 64; CHeapReady 0 true; CHeapReady 1 true; CHeapReady 2 true; CHeapReady 3 false; CFlush].
Example ex_cops_ok : cops_ok 0 ex_cops.
Proof. cbn [ex_cops cops_ok ex_place pl_chunk_id]. lia. Qed.
Example C31_ex : exists s evs, cs_run (cstream_new 2 0) ex_cops = Some (s, evs) /\ cs_too_old s = 2 /\ cs_rejected s = 1 /\
  evs = [EAlloc 0 (Some 100); EExtra 0 100; EWrite 0 100 1000 64; EReady 100; EHead 4; EAlloc 4 (Some 100); EAlloc 5 (Some 101); EExtra 5 101;
         EWrite 5 101 1064 64; EPresent 5 101 3; EReady 100; EReady 101; EHead u64_max].
Proof. eexists _, _. split; [vm_compute; reflexivity|]. repeat split. Qed.
