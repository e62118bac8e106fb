(** C73: Python chunks survive their trip through the rings. *)
From Coq Require Import List Arith ZArith Bool Lia.
From Verif Require Import ConcBase PyChunkModel PyChunkSpec PyChunkProofs.
Import ListNotations.

Lemma filter_sum {A} (p : A -> bool) (g : A -> nat) l :
  (forall x, g x = if p x then 1 else 0) -> length (filter p l) = sumw g l.
Proof. intro H. induction l as [|x l IH]; cbn [filter sumw]; [reflexivity|]. rewrite H. destruct (p x); cbn [length]; lia. Qed.

Definition ind (o : nat) (k : key) (o' : nat) (k' : key) : nat :=
  if (o' =? o) && (if key_eq_dec k' k then true else false) then 1 else 0.
Lemma holding_tot o k s : holding o k s = tot (hw (ind o k)) s.
Proof. apply filter_sum. reflexivity. Qed.
Lemma handed_sum o k log : times handed o k log = sumw (gain (ind o k)) log.
Proof. apply filter_sum. intros []; reflexivity. Qed.
Lemma ended_sum o k log : times ended o k log = sumw (loss (ind o k)) log.
Proof. apply filter_sum. intros []; reflexivity. Qed.

(** ** Nothing dangles *)

(** No call uses a deallocated chunk or writes outside a buffer, whatever the
    application does. *)
Theorem C73_safe : forall caps ls, exec ls (init caps) [] <> Crash.
Proof. exact no_crash. Qed.
Print Assumptions C73_safe.

(** A chunk object exists exactly as long as the application or a ring, a
    stream or a blocked call refers to it. *)
Theorem C73_alive : forall caps ls s log o,
  exec ls (init caps) [] = End s log ->
  ((exists f, chunk_of s o = Some f) <-> (0 < nth o (users s) 0 \/ exists w, In w (wraps s) /\ w_obj w = o)).
Proof.
  intros caps ls s log o H. pose proof (inv_exec _ _ _ _ H) as I. split.
  - intros (f & G). unfold chunk_of, getf in G. destruct (nth_error (objs s) o) as [[f0 rc []]|] eqn:E; try discriminate.
    destruct (i_rc s I _ _ E) as [A B]. cbn [o_rc o_live] in *. symmetry in B. apply Nat.ltb_lt in B.
    destruct (Nat.eq_dec (nth o (users s) 0) 0) as [Z|Z]; [right|left; lia].
    assert (T : 0 < tot (isw o) s) by (rewrite tot_eq in *; lia).
    apply sumw_pos in T as (n & w & N & W). exists w. split; [now apply nth_error_In in N|].
    unfold isw in W. destruct (Nat.eqb_spec (w_obj w) o); [auto|lia].
  - intros [U|(w & W & <-)].
    + destruct (owned s I o) as (f & rc & E & _); [now apply Nat.ltb_lt|]. exists f. exact (getf_eq _ _ _ _ E).
    + destruct (wrapped s I w W) as (f & rc & E). exists f. exact (getf_eq _ _ _ _ E).
Qed.
Print Assumptions C73_alive.

(** ** Nothing disappears *)

(** Each time buffers are handed over with a chunk they are in exactly one place
    until they come out of a ring, come back with an exception or are
    destroyed. *)
Theorem C73_accounted : forall caps ls s log o k,
  exec ls (init caps) [] = End s log ->
  holding o k s + times ended o k log = times handed o k log.
Proof.
  intros caps ls s log o k H. rewrite holding_tot, handed_sum, ended_sum. eapply tot_exec; eauto.
Qed.
Print Assumptions C73_accounted.

(** A chunk that comes back has the buffers with which it went, provided that
    the application does not assign to chunks it has handed over. *)
Theorem C73_round_trip : forall caps ls s log,
  polite ls (init caps) [] -> exec ls (init caps) [] = End s log -> in_order log.
Proof. intros caps ls s log P H. now apply (order_exec caps ls s log). Qed.
Print Assumptions C73_round_trip.

(** Then the log also tells where each chunk is. *)
Theorem C73_where : forall caps ls s log o,
  polite ls (init caps) [] -> exec ls (init caps) [] = End s log ->
  match away log o with
  | Some k => holding o k s = 1 /\ (forall w, In w (wraps s) -> w_obj w = o -> keyof (w_f w) = k)
  | None => forall w, In w (wraps s) -> w_obj w <> o
  end.
Proof.
  intros caps ls s log o P H. destruct (order_exec caps ls s log P H) as [O _].
  assert (T : forall h, tot (hw h) s + sumw (loss h) log = sumw (gain h) log) by (intro h; eapply tot_exec; eauto).
  assert (W : forall w, In w (wraps s) -> away log (w_obj w) = Some (keyof (w_f w))) by (intros w; eapply order_wrap; eauto).
  destruct (away log o) as [k|] eqn:A.
  - split.
    + rewrite holding_tot. specialize (T (ind o k)). pose proof (order_sum log o (fun k' => if key_eq_dec k' k then 1 else 0) O) as S1.
      rewrite A in S1. destruct (key_eq_dec k k); [|congruence].
      assert (G : forall l, sumw (gain (only o (fun k' => if key_eq_dec k' k then 1 else 0))) l = sumw (gain (ind o k)) l).
      { induction l as [|x l IH]; cbn [sumw]; auto. rewrite IH. f_equal. destruct x; cbn [gain]; auto.
        unfold only, ind. destruct (o0 =? o), (key_eq_dec k0 k); reflexivity. }
      assert (L : forall l, sumw (loss (only o (fun k' => if key_eq_dec k' k then 1 else 0))) l = sumw (loss (ind o k)) l).
      { induction l as [|x l IH]; cbn [sumw]; auto. rewrite IH. f_equal. destruct x; cbn [loss]; auto;
        unfold only, ind; destruct (o0 =? o), (key_eq_dec k0 k); reflexivity. }
      rewrite G, L in S1. lia.
    + intros w I Q. specialize (W w I). rewrite Q, A in W. congruence.
  - intros w I Q. specialize (W w I). rewrite Q, A in W. discriminate.
Qed.
Print Assumptions C73_where.

(** The log tells the truth about what the application can see. *)
Theorem C73_visible : forall caps ls s log l s' r evs,
  exec ls (init caps) [] = End s log -> step l s = Some (Done s' r evs) ->
  (forall o k, In (VPut o k) evs -> exists f, chunk_of s o = Some f /\ keyof f = k /\ c_data f <> None /\ c_present f <> None) /\
  (forall o k, In (VOut o k) evs -> r = RChunk o /\ exists f, chunk_of s' o = Some f /\ keyof f = k) /\
  (forall o k, In (VBack o k) evs -> exists e, r = RErr e /\
     forall f, chunk_of s' o = Some f -> keyof f = k) /\
  (forall o, r = RChunk o -> l = LNew \/ exists k, evs = [VOut o k]) /\
  (forall e, r = RErr e -> forall o k, ~ In (VPut o k) evs).
Proof.
  intros caps ls s log l s' r evs H S1. pose proof (inv_exec _ _ _ _ H) as I.
  destruct (step_cases s I _ _ S1) as (s2 & r2 & e2 & Q & C). injection Q as <- <- <-.
  destruct C as [
    |b|o fl b f rc E O' V|o c d f rc E O'|o f rc E O'|o f rc E O'|l r o f rc P E O' F|l r o f rc e P E O' F R X Y|l r o f rc cap items P E O' F ER Q
    |r o f rc cap items E O' F ER Q|r o f rc cap items E O' F ER|i r w f rc cap items EP E ER Q|i how r w f rc e EP E
    |r cap b ER|r cap w items b f rc ER E|r cap items b ER|r c d cap f o items b ER|i fl k v f o b lb EH FO EB K
    |i r w cap items EH ER Q|i r w cap items EH ER|X D J S2];
    (split; [|split; [|split; [|split]]]); try (intros o1 k1 []; fail); try (intros o1 Z; discriminate); try (intros e1 Z; discriminate).
  all: try (intros o1 k1 [Z|[]]; discriminate).
  all: try (intros o1 k1 [Z|[Z|[]]]; discriminate).
  all: try (intros e1 Z o1 k1 []; fail).
  all: try (intros e1 Z o1 k1 [Z1|[]]; discriminate).
  all: try (intros o1 k1 Z; apply in_map_iff in Z as (w & Z & _); discriminate).
  - now left.
  - intros o1 k1 [Z|[]]. injection Z as <- <-. exists f. repeat split; try apply F. exact (getf_eq _ _ _ _ E).
  - intros o1 k1 [Z|[]]. injection Z as <- <-. exists f. repeat split; try apply F. exact (getf_eq _ _ _ _ E).
  - intros o1 k1 [Z|[Z|[]]]; [|discriminate]. injection Z as <- <-. exists f. repeat split; try apply F. exact (getf_eq _ _ _ _ E).
  - intros o1 k1 [Z|[]]. injection Z as <- <-. exists e. split; auto. intros f1 G. unfold chunk_of, getf in G. cbn [objs with_objs] in G.
    rewrite upd_same in G by (eapply lt_of_nth; eauto). unfold dec in G. cbn [o_rc o_f] in G. destruct rc as [|rc]; [discriminate|]. now injection G as <-.
  - intros o1 k1 [Z|[]]. injection Z as <- <-. split; auto. exists (w_f w). split; auto. unfold chunk_of, getf. cbn [objs with_objs with_users].
    now rewrite upd_same by (eapply lt_of_nth; eauto).
  - intros o1 Z. injection Z as <-. right. eauto.
Qed.
Print Assumptions C73_visible.

(** ** Calls that fail *)

(** A put that raises at once changes nothing at all; [add_free_chunk] may have
    cleared the presence flags. *)
Theorem C73_refused : forall caps ls s log l r o s' e evs,
  exec ls (init caps) [] = End s log ->
  (l = LPutNow r o \/ l = LPut r o \/ l = LAddFree r o) ->
  step l s = Some (Done s' (RErr e) evs) ->
  evs = [] /\
  (s' = s \/ (l = LAddFree r o /\ e = EFull /\ exists f b flags, chunk_of s o = Some f /\ c_present f = Some b /\
      nth_error (bufs s) b = Some flags /\ s' = with_bufs s (upd (bufs s) b (repeat 0%Z (length flags))))).
Proof.
  intros caps ls s log l r o s' e evs H L S1. pose proof (inv_exec _ _ _ _ H) as I.
  destruct (step_cases s I _ _ S1) as (s2 & r2 & e2 & Q & C). injection Q as <- <- <-.
  remember (RErr e) as re eqn:RE.
  destruct C as [
    |b|o1 fl b f rc E O' V|o1 c d f rc E O'|o1 f rc E O'|o1 f rc E O'|l r1 o1 f rc P E O' F|l r1 o1 f rc e1 P E O' F R X Y|l r1 o1 f rc cap items P E O' F ER Q
    |r1 o1 f rc cap items E O' F ER Q|r1 o1 f rc cap items E O' F ER|i r1 w f rc cap items EP E ER Q|i how r1 w f rc e1 EP E
    |r1 cap b ER|r1 cap w items b f rc ER E|r1 cap items b ER|r1 c d cap f o1 items b ER|i fl k v f o1 b lb EH FO EB K
    |i r1 w cap items EH ER Q|i r1 w cap items EH ER|X D J S2]; try discriminate RE; try (now auto);
    try (exfalso; destruct L as [L|[L|L]]; discriminate L).
  split; auto. injection RE as ->. destruct L as [->|[->| ->]]; auto. right. split; auto.
  assert (EE : e = EFull) by (eapply X; eauto). split; auto.
  destruct P as [P|[P|P]]; try discriminate. injection P as <- <-.
  destruct (c_present f) as [b|] eqn:PB; [|now destruct F].
  destruct (i_of s I _ _ E) as (A & _). cbn [o_f] in A. rewrite PB in A. cbn in A.
  destruct (nth_error (bufs s) b) as [flags|] eqn:EB; [|apply nth_error_None in EB; lia].
  exists f, b, flags. split; [exact (getf_eq _ _ _ _ E)|]. split; auto. split; auto.
  unfold base_of. rewrite PB. unfold zeroed. now rewrite (nth_error_nth _ _ [] EB).
Qed.
Print Assumptions C73_refused.

(** A chunk that has been handed over cannot be handed over again. *)
Theorem C73_twice : forall caps ls s log l r o k,
  polite ls (init caps) [] -> exec ls (init caps) [] = End s log ->
  (l = LPutNow r o \/ l = LPut r o \/ l = LAddFree r o) ->
  away log o = Some k -> owns o s = true -> r < length (rings s) ->
  step l s = Some (Done s (RErr EValue) []).
Proof.
  intros caps ls s log l r o k P H L A O R. destruct (order_exec caps ls s log P H) as [_ HM]. pose proof (inv_exec _ _ _ _ H) as I.
  destruct (wrap_cases s I o O) as (f & rc & E & W). destruct (HM o _ E) as [D1 D2]; [congruence|]. cbn [o_f] in *.
  destruct W as [[W _]|[[F _] _]]; [|congruence]. apply Nat.ltb_lt in R.
  destruct L as [->|[->| ->]]; cbn [step]; rewrite O, R; cbn [andb]; now rewrite W.
Qed.
Print Assumptions C73_twice.

(** ** Nobody else writes into a chunk *)

(** If each buffer is assigned once, then a buffer belongs to one chunk at most:
    one at home or one handed over. *)
Theorem C73_exclusive : forall caps ls s log b,
  NoDup (assigned ls) -> exec ls (init caps) [] = End s log ->
  length (filter (fun i => i =? b) (flat_map (fun w => bufs_of (w_f w)) (wraps s) ++ flat_map (fun p => bufs_of (o_f p)) (objs s))) <= 1.
Proof.
  intros caps ls s log b N H. pose proof (share_exec _ _ _ _ b H) as G.
  assert (C : forall A (g : A -> list nat) l, length (filter (fun i => i =? b) (flat_map g l)) = sumw (fun x => count_occ Nat.eq_dec (g x) b) l).
  { intros A g l. assert (K : forall m, length (filter (fun i => i =? b) m) = count_occ Nat.eq_dec m b).
    { induction m as [|x m IH]; cbn [filter count_occ]; auto. destruct (Nat.eqb_spec x b), (Nat.eq_dec x b); cbn [length]; try congruence. }
    rewrite K. induction l as [|x l IH]; cbn [flat_map sumw]; auto. rewrite count_occ_app. lia. }
  rewrite filter_app, app_length, !C. apply (NoDup_count_occ Nat.eq_dec) with (x := b) in N. unfold tot, nobj in G.
  change (sumw (fun x => count_occ Nat.eq_dec (bufs_of (w_f x)) b) (wraps s)) with (sumw (hw (nbk b)) (wraps s)). unfold nb in G at 1. lia.
Qed.
Print Assumptions C73_exclusive.

(** So a stream that fills a chunk changes no buffer of a chunk that the
    application has. *)
Theorem C73_undisturbed : forall caps ls s log i fl k v s' r evs o f b,
  NoDup (assigned ls) -> exec ls (init caps) [] = End s log ->
  step (LWrite i fl k v) s = Some (Done s' r evs) ->
  chunk_of s o = Some f -> In b (bufs_of f) ->
  nth_error (bufs s') b = nth_error (bufs s) b /\ chunk_of s' o = Some f.
Proof.
  intros caps ls s log i fl k v s' r evs o f b N H S1 G B. pose proof (inv_exec _ _ _ _ H) as I.
  destruct (step_cases s I _ _ S1) as (s2 & r2 & e2 & Q & C). injection Q as <- <- <-.
  inversion C as [| | | | | |l0 r0 o0 f0 rc0 P|l0 r0 o0 f0 rc0 e0 P|l0 r0 o0 f0 rc0 cap0 items0 P| | | | | | | | |i0 fl0 k0 v0 f0 o0 b0 lb EH FO EB K| | |]; subst;
    try (destruct P as [P|[P|P]]; discriminate P).
  split; [|exact G]. cbn [bufs with_bufs]. apply upd_other. intros ->.
  pose proof (share_exec _ _ _ _ b0 H) as S2. apply (NoDup_count_occ Nat.eq_dec) with (x := b0) in N.
  assert (A1 : 1 <= tot (hw (nbk b0)) s).
  { pose proof (sumw_in (hw (nbk b0)) (wraps s) (WR f0 o0) (in_held s _ _ EH)) as J. rewrite nbk_eq in J. cbn [w_f] in J.
    assert (1 <= nb b0 f0); [|unfold tot; lia]. unfold nb. apply (count_occ_In Nat.eq_dec).
    unfold bufs_of. rewrite !in_app_iff. destruct fl; cbn [field_of] in FO; rewrite FO; cbn; auto. }
  assert (A2 : 1 <= nobj b0 s).
  { unfold chunk_of, getf in G. destruct (nth_error (objs s) o) as [[f1 rc []]|] eqn:E; try discriminate. injection G as ->.
    pose proof (sumw_ge (fun p => nb b0 (o_f p)) (objs s) o _ E) as J. cbn [o_f] in J.
    assert (1 <= nb b0 f); [|unfold nobj; lia]. unfold nb. now apply (count_occ_In Nat.eq_dec). }
  lia.
Qed.
Print Assumptions C73_undisturbed.

(** ** The exception *)

(** [add_free_chunk] on a stopped free ring returns normally, but the chunk is
    in no ring and its buffers are gone. *)
Theorem C73_add_free_stopped : forall caps ls s log r o f cap items,
  exec ls (init caps) [] = End s log -> owns o s = true ->
  chunk_of s o = Some f -> c_data f <> None -> c_present f <> None ->
  nth_error (rings s) r = Some (RG cap items true) ->
  exists s', step (LAddFree r o) s = Some (Done s' RNone [VPut o (keyof f); VLost o (keyof f)]) /\
    chunk_of s' o = Some (moved_from f) /\ rings s' = rings s /\ wraps s' = wraps s.
Proof.
  intros caps ls s log r o f cap items H O G F1 F2 ER. pose proof (inv_exec _ _ _ _ H) as I.
  assert (L : r < length (rings s)) by (eapply lt_of_nth; eauto).
  destruct (wrap_cases s I o O) as (f1 & rc & E & W).
  assert (f1 = f) as -> by (unfold chunk_of in G; rewrite (getf_eq _ _ _ _ E) in G; congruence).
  destruct W as [[_ W]|[_ W]]; [now destruct W|].
  destruct (c_present f) as [b|] eqn:PB; [|congruence].
  eexists. split.
  - cbn [step]. rewrite O. apply Nat.ltb_lt in L. rewrite L. cbn [andb]. rewrite W. cbn [w_f]. rewrite PB, (zero_eq s I o f b (S rc) true E PB).
    unfold try_push. cbn [rings with_objs zeroed with_bufs]. rewrite ER.
    erewrite decref_eq; [|cbn [objs with_objs]; apply upd_same; eapply lt_of_nth; eauto]. cbn [ret]. reflexivity.
  - cbn [objs with_objs rings zeroed with_bufs dec o_rc o_f]. rewrite upd_upd. split; [|auto].
    unfold chunk_of, getf. cbn [objs with_objs]. now rewrite upd_same by (eapply lt_of_nth; eauto).
Qed.
Print Assumptions C73_add_free_stopped.

(** ** Examples *)

(** Ring 0 is the free ring, ring 1 the data ring. *)
Definition make (o : nat) : list label :=
  [LNew; LBuf [7; 7]%Z; LBuf [0; 0; 0; 0]%Z; LSet o FPresent (Some (2 * o)); LSet o FData (Some (2 * o + 1))].
(** Two chunks; the second does not fit, waits, and is interrupted. *)
Definition trip : list label :=
  make 0 ++ make 1 ++
  [LAddFree 0 0; LPut 0 1; LWake 0 Interrupt; LUnref 0;
   LAlloc 0 5 1; LPutNow 0 1; LWrite 0 FPresent 1 1; LWrite 0 FData 3 9; LReady 0 1; LGet 1].
Definition end_of (ls : list label) (caps : list nat) : st :=
  match exec ls (init caps) [] with End s _ => s | _ => init [] end.
Definition log_of (ls : list label) (caps : list nat) : list event :=
  match exec ls (init caps) [] with End _ log => log | _ => [] end.
Definition k0 : key := (Some 0, 2, Some 1, None).
Definition k1 : key := (Some 2, 2, Some 3, None).
Example trip_runs : exec trip (init [1; 1]) [] = End (end_of trip [1; 1]) (log_of trip [1; 1]).
Proof. vm_compute. reflexivity. Qed.
Example trip_polite : polite trip (init [1; 1]) [].
Proof. vm_compute. repeat split. Qed.
Example trip_log : log_of trip [1; 1] = [VPut 0 k0; VPut 1 k1; VBack 1 k1; VPut 1 k1; VOut 0 k0].
Proof. vm_compute. reflexivity. Qed.
(** The application dropped its reference to chunk 0, and gets it back filled. *)
Example trip_got :
  chunk_of (end_of trip [1; 1]) 0 = Some (CF 5 1 (Some 0) 2 (Some 1) None) /\
  bufs (end_of trip [1; 1]) = [[0; 1]; [0; 0; 0; 9]; [7; 7]; [0; 0; 0; 0]]%Z.
Proof. vm_compute. auto. Qed.
Example trip_distinct : NoDup (assigned trip).
Proof. vm_compute. repeat constructor; cbn; intuition lia. Qed.
(** Chunk 1 is still in the free ring, and cannot be put again. *)
Example trip_twice : away (log_of trip [1; 1]) 1 = Some k1 /\
  step (LPutNow 1 1) (end_of trip [1; 1]) = Some (Done (end_of trip [1; 1]) (RErr EValue) []).
Proof. vm_compute. auto. Qed.
(** A put to a full ring raises and leaves the chunk as it is. *)
Example trip_full :
  step (LPutNow 0 0) (end_of trip [1; 1]) = Some (Done (end_of trip [1; 1]) (RErr EFull) []).
Proof. vm_compute. reflexivity. Qed.

(** The whole claim, [add_free_chunk] included, does not hold of the code: after
    the free ring is stopped a chunk given to it is lost, though the call
    returns as if it had been taken. *)
Theorem C73_add_free_refuted : exists caps ls s log o s' f,
  polite ls (init caps) [] /\ exec ls (init caps) [] = End s log /\ owns o s = true /\
  chunk_of s o = Some f /\ c_data f <> None /\ c_present f <> None /\
  (exists evs, step (LAddFree 0 o) s = Some (Done s' RNone evs)) /\
  wraps s' = [] /\ exists f', chunk_of s' o = Some f' /\ c_data f' = None /\ c_present f' = None.
Proof.
  exists [1], (make 0 ++ [LStop 0]). eexists _, _, 0, _, _.
  split; [vm_compute; repeat split|]. split; [vm_compute; reflexivity|]. split; [reflexivity|]. split; [reflexivity|].
  split; [discriminate|]. split; [discriminate|]. split; [eexists; vm_compute; reflexivity|]. split; [reflexivity|].
  eexists. split; [reflexivity|]. auto.
Qed.
Print Assumptions C73_add_free_refuted.

Lemma in_order_out log o k : in_order (log ++ [VOut o k]) -> away log o = Some k.
Proof.
  intro H. remember (log ++ [VOut o k]) as lg eqn:E.
  destruct H as [|l o' k' H A|l o' k' H A|l o' k' H A|l o' k' H A]; [now destruct log|..]; apply app_inj_tail in E as [-> E]; try discriminate.
  now injection E as <- <-.
Qed.
(** Assigning to a chunk that is away does break the round trip: the chunk is in
    the ring twice, and comes out of it with other buffers than it has. *)
Example impolite_mixes : exists ls s log,
  exec ls (init [2]) [] = End s log /\ log = [VPut 0 k0; VPut 0 k1; VOut 0 k0; VOut 0 k1] /\ ~ in_order log.
Proof.
  exists (make 0 ++ [LPutNow 0 0; LBuf [7; 7]%Z; LBuf [0]%Z; LSet 0 FPresent (Some 2); LSet 0 FData (Some 3); LPutNow 0 0; LGet 0; LGet 0]).
  eexists _, _. split; [vm_compute; reflexivity|]. split; [reflexivity|]. intro H.
  change ([VPut 0 (Some 0, 2, Some 1, None); VPut 0 (Some 2, 2, Some 3, None); VOut 0 (Some 0, 2, Some 1, None); VOut 0 (Some 2, 2, Some 3, None)])
    with ([VPut 0 k0; VPut 0 k1; VOut 0 k0] ++ [VOut 0 k1]) in H.
  apply in_order_out in H. vm_compute in H. discriminate.
Qed.
