(** Invariants for PyChunkModel. *)
From Coq Require Import List Arith ZArith Bool Lia.
From Verif Require Import ConcBase PyChunkModel PyChunkSpec.
Import ListNotations.

(** ** Lists *)
Lemma sumw_del {A} (g : A -> nat) l n x : nth_error l n = Some x -> sumw g (del l n) + g x = sumw g l.
Proof.
  revert n; induction l as [|y l IH]; intros [|n] H; cbn [nth_error del sumw] in *; try discriminate.
  - injection H as ->. lia.
  - specialize (IH n H). lia.
Qed.
Lemma in_del {A} (l : list A) n x : In x (del l n) -> In x l.
Proof.
  revert n; induction l as [|y l IH]; intros [|n] H; cbn [del In] in *; auto.
  destruct H as [->|H]; auto. right. now apply IH in H.
Qed.
Lemma sumw_map {A B} (g : B -> nat) (f : A -> B) l : sumw g (map f l) = sumw (fun x => g (f x)) l.
Proof. induction l as [|x l IH]; cbn [map sumw]; auto. Qed.
Lemma sumw_flat {A B} (g : B -> nat) (f : A -> list B) l : sumw g (flat_map f l) = sumw (fun x => sumw g (f x)) l.
Proof. induction l as [|x l IH]; cbn [flat_map sumw]; auto. rewrite sumw_app. lia. Qed.
Lemma sumw_in {A} (g : A -> nat) l x : In x l -> g x <= sumw g l.
Proof. intro H. apply In_nth_error in H as (n & H). exact (sumw_ge g l n x H). Qed.
Lemma nth_error_nth0 (l : list nat) n x : nth_error l n = Some x -> nth n l 0 = x.
Proof. intro H. now apply nth_error_nth. Qed.
Lemma nth_upd0 (l : list nat) n x m : n < length l -> nth m (upd l n x) 0 = if m =? n then x else nth m l 0.
Proof.
  revert n m; induction l as [|y l IH]; intros [|n] [|m] H; cbn [upd nth length Nat.eqb] in *; try lia; auto. apply IH. lia.
Qed.

(** ** Weights over all wrappers *)
Definition tot (g : wrapper -> nat) (s : st) : nat := sumw g (wraps s).
Definition rgw (g : wrapper -> nat) (r : ring) : nat := sumw g (r_items r).
Definition pdw (g : wrapper -> nat) (p : nat * wrapper) : nat := g (snd p).
Lemma tot_eq g s : tot g s = sumw (rgw g) (rings s) + sumw (pdw g) (pend s) + sumw g (held s) + sumw g (grave s).
Proof.
  unfold tot, wraps. rewrite !sumw_app, sumw_flat, sumw_map. unfold rgw, pdw. lia.
Qed.
Definition isw (o : nat) (w : wrapper) : nat := if w_obj w =? o then 1 else 0.

Lemma isw_same w : isw (w_obj w) w = 1.
Proof. unfold isw. now rewrite Nat.eqb_refl. Qed.
Lemma isw_other o w : o <> w_obj w -> isw o w = 0.
Proof. intro H. unfold isw. destruct (Nat.eqb_spec (w_obj w) o); congruence. Qed.

(** Reference that remains after one is dropped. *)
Definition dec (p : pobj) : pobj :=
  match o_rc p with
  | S (S rc) => PO (o_f p) (S rc) true
  | _ => PO (moved_from (o_f p)) 0 false
  end.

Lemma decref_eq o s f rc :
  nth_error (objs s) o = Some (PO f (S rc) true) ->
  decref o s = Some (with_objs s (upd (objs s) o (dec (PO f (S rc) true)))).
Proof. intro H. unfold decref. rewrite H. destruct rc; reflexivity. Qed.
Lemma getf_eq o s f rc : nth_error (objs s) o = Some (PO f rc true) -> getf o s = Some f.
Proof. intro H. unfold getf. now rewrite H. Qed.
Lemma setf_eq o s f rc f' :
  nth_error (objs s) o = Some (PO f rc true) -> setf o f' s = Some (with_objs s (upd (objs s) o (PO f' rc true))).
Proof. intro H. unfold setf. now rewrite H. Qed.
Lemma incref_eq o s f rc :
  nth_error (objs s) o = Some (PO f rc true) -> incref o s = Some (with_objs s (upd (objs s) o (PO f (S rc) true))).
Proof. intro H. unfold incref. now rewrite H. Qed.
Lemma lt_of_nth {A} (l : list A) n x : nth_error l n = Some x -> n < length l.
Proof. intro H. apply nth_error_Some. now rewrite H. Qed.

(** ** The invariant *)
Definition okb (s : st) (b : option nat) : Prop := match b with Some i => i < length (bufs s) | None => True end.
Definition okf (s : st) (f : chunkf) : Prop :=
  okb s (c_present f) /\ okb s (c_data f) /\ okb s (c_extra f) /\
  match c_present f with Some i => c_psize f = length (nth i (bufs s) []) | None => True end.
Definition full (f : chunkf) : Prop := c_data f <> None /\ c_present f <> None.

Record inv (s : st) : Prop := {
  i_len : length (users s) = length (objs s);
  i_rc : forall o p, nth_error (objs s) o = Some p ->
    o_rc p = nth o (users s) 0 + tot (isw o) s + sumw (pdw (isw o)) (pend s) /\ o_live p = (0 <? o_rc p);
  i_of : forall o p, nth_error (objs s) o = Some p -> okf s (o_f p);
  i_w : forall w, In w (wraps s) -> w_obj w < length (objs s) /\ okf s (w_f w) /\ full (w_f w);
  i_cap : forall r cap items b, nth_error (rings s) r = Some (RG cap items b) -> length items <= cap;
  i_pend : forall r w, In (r, w) (pend s) -> r < length (rings s)
}.

Lemma inv_init caps : inv (init caps).
Proof.
  assert (F : flat_map r_items (map (fun c => RG c [] false) caps) = []) by (induction caps; cbn; auto).
  constructor; cbn; auto.
  - intros [|o] p H; discriminate.
  - intros [|o] p H; discriminate.
  - intros w H. unfold wraps in H. cbn in H. rewrite F in H. destruct H.
  - intros r cap items b H. apply nth_error_In, in_map_iff in H as (c & H & _). injection H as <- <- <-. cbn. lia.
  - intros r w [].
Qed.

Section Facts.
Context (s : st) (I : inv s).

Lemma owned o : owns o s = true -> exists f rc, nth_error (objs s) o = Some (PO f (S rc) true) /\ 0 < nth o (users s) 0.
Proof.
  intro O. unfold owns in O. apply Nat.ltb_lt in O.
  assert (L : o < length (objs s)).
  { rewrite <- (i_len s I). destruct (Nat.lt_ge_cases o (length (users s))) as [|G]; auto. rewrite nth_overflow in O; lia. }
  destruct (nth_error (objs s) o) as [[f rc lv]|] eqn:E; [|apply nth_error_None in E; lia].
  destruct (i_rc s I o _ E) as [A B]. cbn [o_rc o_live] in *. destruct rc as [|rc]; [lia|].
  exists f, rc. subst lv. split; auto.
Qed.
Lemma wrapped w : In w (wraps s) -> exists f rc, nth_error (objs s) (w_obj w) = Some (PO f (S rc) true).
Proof.
  intro H. destruct (i_w s I w H) as (L & _ & _).
  destruct (nth_error (objs s) (w_obj w)) as [[f rc lv]|] eqn:E; [|apply nth_error_None in E; lia].
  destruct (i_rc s I _ _ E) as [A B]. cbn [o_rc o_live] in *.
  assert (1 <= tot (isw (w_obj w)) s).
  { pose proof (sumw_in (isw (w_obj w)) (wraps s) w H) as G. unfold isw at 1 in G. rewrite Nat.eqb_refl in G. exact G. }
  destruct rc as [|rc]; [lia|]. exists f, rc. now subst lv.
Qed.
Lemma in_pend i r w : nth_error (pend s) i = Some (r, w) -> In w (wraps s).
Proof.
  intro H. apply nth_error_In in H. unfold wraps. rewrite !in_app_iff. right. left. apply in_map_iff. now exists (r, w).
Qed.
Lemma pended i r w : nth_error (pend s) i = Some (r, w) -> exists f rc, nth_error (objs s) (w_obj w) = Some (PO f (S (S rc)) true).
Proof.
  intro H. destruct (wrapped w (in_pend _ _ _ H)) as (f & rc & E). exists f. destruct rc as [|rc]; [|now exists rc]. exfalso.
  destruct (i_rc s I _ _ E) as [A _]. cbn [o_rc] in A.
  rewrite tot_eq in A. pose proof (sumw_ge (pdw (isw (w_obj w))) (pend s) i _ H) as G.
  unfold pdw at 1, isw at 1 in G. cbn [snd] in G. rewrite Nat.eqb_refl in G. lia.
Qed.
Lemma in_ring r cap items b w : nth_error (rings s) r = Some (RG cap items b) -> In w items -> In w (wraps s).
Proof.
  intros H J. unfold wraps. rewrite !in_app_iff. left. apply in_flat_map. exists (RG cap items b). split; auto. now apply nth_error_In in H.
Qed.
Lemma in_held i w : nth_error (held s) i = Some w -> In w (wraps s).
Proof. intro H. apply nth_error_In in H. unfold wraps. rewrite !in_app_iff. auto. Qed.

End Facts.

(** Dropping the last reference of an object leaves nothing of it but integers. *)
Definition shrunk (l l' : list pobj) : Prop :=
  length l' = length l /\
  forall o p', nth_error l' o = Some p' ->
    exists p, nth_error l o = Some p /\ (o_f p' = o_f p \/ (o_f p' = moved_from (o_f p) /\ o_live p' = false)) /\
      (o_live p' = true -> o_live p = true).
Lemma shrunk_refl l : shrunk l l.
Proof. split; auto. intros o p H. exists p. auto. Qed.

Lemma okf_moved s f : okf s (moved_from f).
Proof. repeat split. Qed.
Lemma okf_dec s f rc b : okf s f -> okf s (o_f (dec (PO f rc b))).
Proof. intro H. unfold dec. cbn [o_rc o_f]. destruct rc as [|[|rc]]; cbn [o_f]; auto using okf_moved. Qed.
Lemma dec_rc f rc : o_rc (dec (PO f (S rc) true)) = rc /\ o_live (dec (PO f (S rc) true)) = (0 <? rc).
Proof. destruct rc; cbn; auto. Qed.

Lemma drop_ok l : forall s, inv (with_grave s l) ->
  exists X, drop_all l (with_grave s []) = Some (with_objs (with_grave s []) X) /\ inv (with_objs (with_grave s []) X) /\ shrunk (objs s) X.
Proof.
  induction l as [|w l IH]; intros s I.
  - exists (objs s). cbn [drop_all]. split; [now destruct s|]. split; [now destruct s|apply shrunk_refl].
  - destruct (wrapped _ I w) as (f & rc & E). { unfold wraps. cbn [grave with_grave]. rewrite !in_app_iff. right. right. right. now left. }
    cbn [objs with_grave] in E.
    set (X := upd (objs s) (w_obj w) (dec (PO f (S rc) true))).
    assert (J : inv (with_grave (with_objs s X) l)).
    { constructor; cbn [objs users bufs rings pend held grave with_objs with_grave].
      - unfold X. rewrite upd_length. exact (i_len _ I).
      - intros o p N. assert (T : tot (isw o) (with_grave s (w :: l)) = tot (isw o) (with_grave (with_objs s X) l) + isw o w).
        { rewrite !tot_eq. cbn [objs users bufs rings pend held grave with_objs with_grave sumw]. lia. }
        unfold X in N. rewrite nth_upd in N. destruct (Nat.eqb_spec o (w_obj w)) as [->|D].
        + destruct (Nat.ltb_spec (w_obj w) (length (objs s))); [|discriminate]. injection N as <-.
          destruct (i_rc _ I _ _ E) as [A _]. cbn [o_rc users pend with_grave] in A.
          destruct (dec_rc f rc) as [-> ->]. rewrite isw_same in T. split; [lia|reflexivity].
        + destruct (i_rc _ I _ _ N) as [A B]. cbn [o_rc users pend with_grave] in A.
          rewrite isw_other in T by auto. split; [lia|exact B].
      - intros o p N. unfold X in N. rewrite nth_upd in N. destruct (Nat.eqb_spec o (w_obj w)) as [->|D].
        + destruct (Nat.ltb_spec (w_obj w) (length (objs s))); [|discriminate]. injection N as <-.
          apply okf_dec. exact (i_of _ I _ _ E).
        + exact (i_of _ I _ _ N).
      - intros v N. unfold X. rewrite upd_length. apply (i_w _ I). unfold wraps in *.
        cbn [objs users bufs rings pend held grave with_objs with_grave] in *. rewrite !in_app_iff in *. cbn [In]. tauto.
      - exact (i_cap _ I).
      - exact (i_pend _ I). }
    destruct (IH _ J) as (Y & D & K & S1). exists Y. split; [|split].
    + cbn [drop_all]. erewrite decref_eq; [|exact E]. exact D.
    + exact K.
    + cbn [objs with_objs] in S1. destruct S1 as [S1 S2]. unfold X in S1, S2. rewrite upd_length in S1. split; auto.
      intros o p' N. destruct (S2 _ _ N) as (p & N2 & S3 & S4). rewrite nth_upd in N2. destruct (Nat.eqb_spec o (w_obj w)) as [->|Dd].
      * destruct (Nat.ltb_spec (w_obj w) (length (objs s))); [|discriminate]. injection N2 as <-. exists (PO f (S rc) true). split; auto.
        split; [|auto]. unfold dec in S3. cbn [o_rc o_f] in *. destruct rc as [|rc]; cbn [o_f o_live] in *; [|exact S3].
        right. cbn in S4. destruct (o_live p') eqn:L; [specialize (S4 eq_refl); cbn in S4; discriminate|].
        destruct S3 as [->|[-> _]]; auto.
      * exists p. auto.
Qed.

Section Cases.
Context (s : st) (I : inv s).

(** The closed forms of all steps. *)
Definition isput (l : label) (r o : nat) : Prop := l = LPutNow r o \/ l = LPut r o \/ l = LAddFree r o.
(** Contents after the memset of [add_free_chunk]. *)
Definition zeroed (b : nat) : st := with_bufs s (upd (bufs s) b (repeat 0%Z (length (nth b (bufs s) [])))).
Definition base_of (l : label) (f : chunkf) : st :=
  match l, c_present f with LAddFree _ _, Some b => zeroed b | _, _ => s end.

Inductive scase : label -> st -> res -> list event -> Prop :=
| SNew : scase LNew (with_users (with_objs s (objs s ++ [PO chunk0 1 true])) (users s ++ [1])) (RChunk (length (objs s))) []
| SBuf b : scase (LBuf b) (with_bufs s (bufs s ++ [b])) RNone []
| SSet o fl b f rc : nth_error (objs s) o = Some (PO f (S rc) true) -> owns o s = true -> validb b s = true ->
    scase (LSet o fl b) (with_objs s (upd (objs s) o (PO (set_field fl b s f) (S rc) true))) RNone []
| SIds o c d f rc : nth_error (objs s) o = Some (PO f (S rc) true) -> owns o s = true ->
    scase (LIds o c d) (with_objs s (upd (objs s) o (PO (CF c d (c_present f) (c_psize f) (c_data f) (c_extra f)) (S rc) true))) RNone []
| SRef o f rc : nth_error (objs s) o = Some (PO f (S rc) true) -> owns o s = true ->
    scase (LRef o) (with_users (with_objs s (upd (objs s) o (PO f (S (S rc)) true))) (upd (users s) o (S (nth o (users s) 0)))) RNone []
| SUnref o f rc : nth_error (objs s) o = Some (PO f (S rc) true) -> owns o s = true ->
    scase (LUnref o) (with_objs (with_users s (upd (users s) o (nth o (users s) 0 - 1))) (upd (objs s) o (dec (PO f (S rc) true)))) RNone []
| SValue l r o f rc : isput l r o -> nth_error (objs s) o = Some (PO f (S rc) true) -> owns o s = true -> ~ full f ->
    scase l s (RErr EValue) []
| SRaise l r o f rc e : isput l r o -> nth_error (objs s) o = Some (PO f (S rc) true) -> owns o s = true -> full f ->
    (exists cap items b, nth_error (rings s) r = Some (RG cap items b) /\
       ((b = true /\ e = EStopped) \/ (b = false /\ e = EFull /\ cap <= length items))) ->
    (forall r' o', l = LAddFree r' o' -> e = EFull) -> (forall r' o', l = LPut r' o' -> e = EStopped) ->
    scase l (base_of l f) (RErr e) []
| STaken l r o f rc cap items : isput l r o -> nth_error (objs s) o = Some (PO f (S rc) true) -> owns o s = true -> full f ->
    nth_error (rings s) r = Some (RG cap items false) -> length items < cap ->
    scase l (with_rings (with_objs (base_of l f) (upd (objs s) o (PO (moved_from f) (S (S rc)) true)))
              (upd (rings s) r (RG cap (items ++ [WR f o]) false))) RNone [VPut o (keyof f)]
| SBlock r o f rc cap items : nth_error (objs s) o = Some (PO f (S rc) true) -> owns o s = true -> full f ->
    nth_error (rings s) r = Some (RG cap items false) -> cap <= length items ->
    scase (LPut r o) (with_pend (with_objs s (upd (objs s) o (PO (moved_from f) (S (S (S rc))) true))) (pend s ++ [(r, WR f o)]))
      RBlocked [VPut o (keyof f)]
| SLose r o f rc cap items : nth_error (objs s) o = Some (PO f (S rc) true) -> owns o s = true -> full f ->
    nth_error (rings s) r = Some (RG cap items true) ->
    scase (LAddFree r o) (with_objs (base_of (LAddFree r o) f) (upd (objs s) o (PO (moved_from f) (S rc) true)))
      RNone [VPut o (keyof f); VLost o (keyof f)]
| SGo i r w f rc cap items : nth_error (pend s) i = Some (r, w) -> nth_error (objs s) (w_obj w) = Some (PO f (S (S rc)) true) ->
    nth_error (rings s) r = Some (RG cap items false) -> length items < cap ->
    scase (LWake i Go) (with_objs (with_rings (with_pend s (del (pend s) i)) (upd (rings s) r (RG cap (items ++ [w]) false)))
                          (upd (objs s) (w_obj w) (PO f (S rc) true))) RNone []
| SBack i how r w f rc e : nth_error (pend s) i = Some (r, w) -> nth_error (objs s) (w_obj w) = Some (PO f (S (S rc)) true) ->
    scase (LWake i how) (with_objs (with_pend s (del (pend s) i)) (upd (objs s) (w_obj w) (dec (PO (w_f w) (S rc) true))))
      (RErr e) [VBack (w_obj w) (keyof (w_f w))]
| SNothing r cap b : nth_error (rings s) r = Some (RG cap [] b) ->
    scase (LGet r) s (RErr (if b then EStopped else EEmpty)) []
| SGet r cap w items b f rc : nth_error (rings s) r = Some (RG cap (w :: items) b) ->
    nth_error (objs s) (w_obj w) = Some (PO f (S rc) true) ->
    scase (LGet r) (with_users (with_objs (with_rings s (upd (rings s) r (RG cap items b))) (upd (objs s) (w_obj w) (PO (w_f w) (S rc) true)))
                     (upd (users s) (w_obj w) (S (nth (w_obj w) (users s) 0)))) (RChunk (w_obj w)) [VOut (w_obj w) (keyof (w_f w))]
| SStop r cap items b : nth_error (rings s) r = Some (RG cap items b) ->
    scase (LStop r) (with_rings s (upd (rings s) r (RG cap items true))) RNone []
| SAlloc r c d cap f o items b : nth_error (rings s) r = Some (RG cap (WR f o :: items) b) ->
    scase (LAlloc r c d) (with_held (with_rings s (upd (rings s) r (RG cap items b)))
       (held s ++ [WR (CF c d (c_present f) (c_psize f) (c_data f) (c_extra f)) o])) RNone []
| SWrite i fl k v f o b lb : nth_error (held s) i = Some (WR f o) -> field_of fl f = Some b -> nth_error (bufs s) b = Some lb ->
    k < length lb -> scase (LWrite i fl k v) (with_bufs s (upd (bufs s) b (upd lb k v))) RNone []
| SReady i r w cap items : nth_error (held s) i = Some w -> nth_error (rings s) r = Some (RG cap items false) -> length items < cap ->
    scase (LReady i r) (with_rings (with_held s (del (held s) i)) (upd (rings s) r (RG cap (items ++ [w]) false))) RNone []
| SGrave i r w cap items : nth_error (held s) i = Some w -> nth_error (rings s) r = Some (RG cap items true) ->
    scase (LReady i r) (with_grave (with_held s (del (held s) i)) (w :: grave s)) RNone []
| SFree X : drop_all (grave s) (with_grave s []) = Some (with_objs (with_grave s []) X) -> inv (with_objs (with_grave s []) X) ->
    shrunk (objs s) X ->
    scase LFree (with_objs (with_grave s []) X) RNone (map (fun w => VLost (w_obj w) (keyof (w_f w))) (grave s)).

Lemma wrap_cases o : owns o s = true ->
  exists f rc, nth_error (objs s) o = Some (PO f (S rc) true) /\
    ((wrap_chunk o s = Some None /\ ~ full f) \/
     (full f /\ wrap_chunk o s = Some (Some (WR f o, with_objs s (upd (objs s) o (PO (moved_from f) (S (S rc)) true)))))).
Proof.
  intro O. destruct (owned s I o O) as (f & rc & E & _). exists f, rc. split; auto. unfold wrap_chunk. rewrite (getf_eq _ _ _ _ E). cbn [obind].
  destruct (c_data f) eqn:D; [|left; split; auto; intros [A _]; auto].
  destruct (c_present f) eqn:P; [|left; split; auto; intros [_ A]; auto].
  right. split; [split; congruence|]. rewrite (setf_eq _ _ _ _ _ E). cbn [obind].
  rewrite (incref_eq o _ (moved_from f) (S rc)); [|cbn [objs with_objs]; now rewrite upd_same by (eapply lt_of_nth; eauto)].
  cbn [obind objs with_objs users bufs rings pend held grave]. now rewrite upd_upd.
Qed.

Lemma unwind_id o f rc s0 :
  nth_error (objs s0) o = Some (PO f (S rc) true) ->
  unwind (WR f o) (with_objs s0 (upd (objs s0) o (PO (moved_from f) (S (S rc)) true))) = Some s0.
Proof.
  intro E. unfold unwind. cbn [w_obj w_f]. pose proof (lt_of_nth _ _ _ E) as L.
  erewrite setf_eq; [|cbn [objs with_objs]; now apply upd_same]. cbn [obind].
  erewrite decref_eq; [|cbn [objs with_objs]; apply upd_same; now rewrite upd_length].
  cbn [objs with_objs users bufs rings pend held grave dec o_rc o_f]. rewrite !upd_upd, (upd_id _ _ _ E). now destruct s0.
Qed.

Lemma zero_eq o f b rc p : nth_error (objs s) o = Some (PO f rc p) -> c_present f = Some b -> forall X,
  zero b (c_psize f) (with_objs s X) = Some (with_objs (zeroed b) X).
Proof.
  intros E P X. destruct (i_of s I _ _ E) as (A & _ & _ & D). cbn [o_f] in *. rewrite P in *. cbn [okb] in A.
  unfold zero. cbn [bufs with_objs]. destruct (nth_error (bufs s) b) as [l|] eqn:N; [|apply nth_error_None in N; lia].
  rewrite (nth_error_nth _ _ [] N) in D. rewrite D, Nat.leb_refl, skipn_all, app_nil_r. unfold zeroed.
  rewrite (nth_error_nth _ _ [] N). reflexivity.
Qed.

Lemma push_cases r w s0 : rings s0 = rings s -> r < length (rings s) ->
  exists cap items b, nth_error (rings s) r = Some (RG cap items b) /\
    ((b = true /\ try_push r w s0 = inl EStopped) \/
     (b = false /\ cap <= length items /\ try_push r w s0 = inl EFull) \/
     (b = false /\ length items < cap /\ try_push r w s0 = inr (with_rings s0 (upd (rings s) r (RG cap (items ++ [w]) false))))).
Proof.
  intros R L. destruct (nth_error (rings s) r) as [[cap items b]|] eqn:E; [|apply nth_error_None in E; lia].
  exists cap, items, b. split; auto. unfold try_push. rewrite R, E. destruct b; auto. right.
  destruct (Nat.ltb_spec (length items) cap); auto.
Qed.

Lemma step_cases l out : step l s = Some out -> exists s' r e, out = Done s' r e /\ scase l s' r e.
Proof.
  destruct l as [|b|o fl b|o c d|o|o|r o|r o|i how|r|r o|r|r c d|i fl k v|i r|]; cbn [step]; intro H.
  - injection H as <-. do 3 eexists. split; [reflexivity|constructor].
  - injection H as <-. do 3 eexists. split; [reflexivity|constructor].
  - destruct (owns o s) eqn:O; [|discriminate]. destruct (validb b s) eqn:V; [|discriminate]. injection H as <-.
    destruct (owned s I o O) as (f & rc & E & _). rewrite (getf_eq _ _ _ _ E). cbn [obind]. rewrite (setf_eq _ _ _ _ _ E). cbn [ret].
    do 3 eexists. split; [reflexivity|]. now apply SSet.
  - destruct (owns o s) eqn:O; [|discriminate]. injection H as <-.
    destruct (owned s I o O) as (f & rc & E & _). rewrite (getf_eq _ _ _ _ E). cbn [obind]. rewrite (setf_eq _ _ _ _ _ E). cbn [ret].
    do 3 eexists. split; [reflexivity|]. now apply SIds.
  - destruct (owns o s) eqn:O; [|discriminate]. injection H as <-.
    destruct (owned s I o O) as (f & rc & E & _). rewrite (incref_eq _ _ _ _ E). cbn [obind ret].
    do 3 eexists. split; [reflexivity|]. now apply SRef.
  - destruct (owns o s) eqn:O; [|discriminate]. injection H as <-.
    destruct (owned s I o O) as (f & rc & E & _). erewrite decref_eq; [|exact E]. cbn [ret].
    do 3 eexists. split; [reflexivity|]. now apply SUnref.
  - destruct (owns o s) eqn:O; [|discriminate]. destruct (Nat.ltb_spec r (length (rings s))) as [L|]; [|discriminate]. cbn [andb] in H.
    destruct (wrap_cases o O) as (f & rc & E & [[W N]|[F W]]); rewrite W in H.
    { injection H as <-. do 3 eexists. split; [reflexivity|]. eapply SValue; eauto. now left. }
    set (s1 := with_objs s (upd (objs s) o (PO (moved_from f) (S (S rc)) true))) in *.
    destruct (push_cases r (WR f o) s1 eq_refl L) as (cap & items & b & ER & [[-> P]|[(-> & Q & P)|(-> & Q & P)]]); rewrite P in H; injection H as <-.
    + unfold s1. rewrite (unwind_id _ _ _ _ E). do 3 eexists. split; [reflexivity|].
      apply (SRaise (LPutNow r o) r o f rc EStopped); auto; [now left|exists cap, items, true; auto|discriminate].
    + unfold s1. rewrite (unwind_id _ _ _ _ E). do 3 eexists. split; [reflexivity|].
      apply (SRaise (LPutNow r o) r o f rc EFull); auto; [now left|exists cap, items, false; auto|discriminate].
    + do 3 eexists. split; [reflexivity|]. apply (STaken (LPutNow r o) r o f rc cap items); auto. now left.
  - destruct (owns o s) eqn:O; [|discriminate]. destruct (Nat.ltb_spec r (length (rings s))) as [L|]; [|discriminate]. cbn [andb] in H.
    destruct (wrap_cases o O) as (f & rc & E & [[W N]|[F W]]); rewrite W in H.
    { injection H as <-. do 3 eexists. split; [reflexivity|]. eapply SValue; eauto. right. now left. }
    set (s1 := with_objs s (upd (objs s) o (PO (moved_from f) (S (S rc)) true))) in *.
    destruct (push_cases r (WR f o) s1 eq_refl L) as (cap & items & b & ER & [[-> P]|[(-> & Q & P)|(-> & Q & P)]]); rewrite P in H; injection H as <-.
    + unfold s1. rewrite (unwind_id _ _ _ _ E). do 3 eexists. split; [reflexivity|].
      apply (SRaise (LPut r o) r o f rc EStopped); auto; [right; now left|exists cap, items, true; auto|discriminate].
    + unfold s1. erewrite incref_eq; [|cbn [objs with_objs]; apply upd_same; eapply lt_of_nth; eauto].
      cbn [obind objs with_objs users bufs rings pend held grave ret w_f]. rewrite upd_upd.
      do 3 eexists. split; [reflexivity|]. exact (SBlock r o f rc cap items E O F ER Q).
    + do 3 eexists. split; [reflexivity|]. apply (STaken (LPut r o) r o f rc cap items); auto. right. now left.
  - destruct (nth_error (pend s) i) as [[r w]|] eqn:EP; [|discriminate].
    destruct (pended s I _ _ _ EP) as (f & rc & E).
    set (s0 := with_pend s (del (pend s) i)) in *.
    destruct (push_cases r w s0 eq_refl (i_pend s I r w (nth_error_In _ _ EP))) as (cap & items & b & ER & P).
    assert (B : (s1 <- unwind w s0;; decref (w_obj w) s1) =
                Some (with_objs s0 (upd (objs s) (w_obj w) (dec (PO (w_f w) (S rc) true))))).
    { pose proof (lt_of_nth _ _ _ E) as L0. unfold unwind. erewrite setf_eq; [|exact E]. cbn [obind].
      erewrite decref_eq; [|cbn [objs with_objs]; now apply upd_same].
      cbn [obind objs with_objs dec o_rc o_f]. erewrite decref_eq; [|cbn [objs with_objs]; apply upd_same; now rewrite !upd_length].
      cbn [objs with_objs users bufs rings pend held grave]. unfold s0. cbn [objs with_pend]. now rewrite !upd_upd. }
    destruct how.
    + destruct P as [[-> P]|[(-> & Q & P)|(-> & Q & P)]]; rewrite P in H; try discriminate. injection H as <-.
      erewrite decref_eq; [|exact E]. cbn [ret dec o_rc o_f]. do 3 eexists. split; [reflexivity|].
      exact (SGo i r w f rc cap items EP E ER Q).
    + destruct P as [[-> P]|[(-> & Q & P)|(-> & Q & P)]]; rewrite P in H; try discriminate. injection H as <-.
      rewrite B. do 3 eexists. split; [reflexivity|]. exact (SBack i Stop r w f rc _ EP E).
    + injection H as <-. rewrite B. do 3 eexists. split; [reflexivity|]. exact (SBack i Interrupt r w f rc _ EP E).
  - destruct (nth_error (rings s) r) as [[cap [|w items] b]|] eqn:ER; [| |discriminate]; injection H as <-.
    + do 3 eexists. split; [reflexivity|]. now apply SNothing with cap.
    + destruct (wrapped s I w (in_ring s _ _ _ _ _ ER (or_introl eq_refl))) as (f & rc & E).
      unfold unwrap_chunk. erewrite setf_eq; [|exact E]. cbn [obind ret].
      do 3 eexists. split; [reflexivity|]. exact (SGet r cap w items b f rc ER E).
  - destruct (owns o s) eqn:O; [|discriminate]. destruct (Nat.ltb_spec r (length (rings s))) as [L|]; [|discriminate]. cbn [andb] in H.
    destruct (wrap_cases o O) as (f & rc & E & [[W N]|[F W]]); rewrite W in H.
    { injection H as <-. do 3 eexists. split; [reflexivity|]. eapply SValue; eauto. right. now right. }
    cbn [w_f] in H. destruct (c_present f) as [b|] eqn:PB; [|now destruct F].
    rewrite (zero_eq o f b (S rc) true E PB) in H.
    set (s1 := with_objs (zeroed b) (upd (objs s) o (PO (moved_from f) (S (S rc)) true))) in *.
    destruct (push_cases r (WR f o) s1 eq_refl L) as (cap & items & bb & ER & [[-> P]|[(-> & Q & P)|(-> & Q & P)]]); rewrite P in H; injection H as <-.
    + unfold s1. erewrite decref_eq; [|cbn [objs with_objs]; apply upd_same; eapply lt_of_nth; eauto].
      cbn [ret objs with_objs dec o_rc o_f]. rewrite upd_upd. do 3 eexists. split; [reflexivity|].
      pose proof (SLose r o f rc cap items E O F ER) as C. unfold base_of in C. rewrite PB in C. exact C.
    + unfold s1. replace (objs s) with (objs (zeroed b)) by reflexivity. rewrite unwind_id by exact E. do 3 eexists. split; [reflexivity|].
      assert (C : scase (LAddFree r o) (base_of (LAddFree r o) f) (RErr EFull) []).
      { apply (SRaise (LAddFree r o) r o f rc EFull); auto; [right; now right|exists cap, items, false; auto|discriminate]. }
      unfold base_of in C. rewrite PB in C. exact C.
    + do 3 eexists. split; [reflexivity|].
      assert (C := STaken (LAddFree r o) r o f rc cap items (or_intror (or_intror eq_refl)) E O F ER Q).
      unfold base_of in C. rewrite PB in C. exact C.
  - destruct (nth_error (rings s) r) as [[cap items b]|] eqn:ER; [|discriminate]. injection H as <-.
    do 3 eexists. split; [reflexivity|]. now apply SStop with b.
  - destruct (nth_error (rings s) r) as [[cap [|[f o] items] b]|] eqn:ER; try discriminate. injection H as <-.
    do 3 eexists. split; [reflexivity|]. now apply SAlloc.
  - destruct (nth_error (held s) i) as [[f o]|] eqn:EH; [|discriminate].
    destruct (i_w s I _ (in_held s _ _ EH)) as (_ & (K1 & K2 & K3 & K4) & _). cbn [w_f] in *.
    destruct (field_of fl f) as [b|] eqn:FO; [|discriminate].
    assert (LB : b < length (bufs s)).
    { destruct fl; cbn [field_of] in FO; rewrite FO in *; assumption. }
    destruct (nth_error (bufs s) b) as [lb|] eqn:EB; [|apply nth_error_None in EB; lia].
    destruct (Nat.ltb_spec k match fl with FPresent => c_psize f | _ => length lb end) as [LK|]; [|discriminate].
    assert (K : k < length lb).
    { destruct fl; auto. cbn [field_of] in FO. rewrite FO, (nth_error_nth _ _ [] EB) in K4. lia. }
    apply Nat.ltb_lt in K as K'. rewrite K' in H. injection H as <-. do 3 eexists. split; [reflexivity|]. now apply SWrite with f o.
  - destruct (nth_error (held s) i) as [w|] eqn:EH; [|discriminate]. destruct (Nat.ltb_spec r (length (rings s))) as [L|]; [|discriminate].
    destruct (push_cases r w (with_held s (del (held s) i)) eq_refl L) as (cap & items & b & ER & [[-> P]|[(-> & Q & P)|(-> & Q & P)]]);
      rewrite P in H; try discriminate; injection H as <-.
    + do 3 eexists. split; [reflexivity|]. now apply (SGrave i r w cap items).
    + do 3 eexists. split; [reflexivity|]. now apply (SReady i r w cap items).
  - injection H as <-. destruct (drop_ok (grave s) s) as (X & D & J & K); [now destruct s|]. rewrite D. cbn [ret].
    do 3 eexists. split; [reflexivity|]. now apply SFree.
Qed.

End Cases.

Lemma sumw_pdw g l r w : sumw (pdw g) (l ++ [(r, w)]) = sumw (pdw g) l + g w.
Proof. rewrite sumw_app. unfold pdw. cbn [sumw snd]. lia. Qed.

(** ** Preservation *)
Definition bufs_le (B B' : list (list Z)) : Prop :=
  length B <= length B' /\ forall i, i < length B -> length (nth i B' []) = length (nth i B []).
Lemma bufs_le_refl B : bufs_le B B.
Proof. split; auto. Qed.
Lemma okb_mono s s' b : bufs_le (bufs s) (bufs s') -> okb s b -> okb s' b.
Proof. intros [A _]. destruct b; cbn; [lia|auto]. Qed.
Lemma okf_mono s s' f : bufs_le (bufs s) (bufs s') -> okf s f -> okf s' f.
Proof.
  intros B (H1 & H2 & H3 & H4). repeat split; try (eapply okb_mono; eauto).
  destruct (c_present f) as [b|]; auto. destruct B as [B1 B2]. cbn in H1. rewrite B2; auto.
Qed.
Lemma bufs_le_upd B b l l0 : nth_error B b = Some l0 -> length l = length l0 -> bufs_le B (upd B b l).
Proof.
  intros N E. split; [now rewrite upd_length|]. intros i L. destruct (Nat.eq_dec i b) as [->|D].
  - rewrite (nth_error_nth (upd B b l) b [] (upd_same B b l L)), (nth_error_nth _ _ [] N). exact E.
  - destruct (nth_error B i) as [x|] eqn:Ex; [|apply nth_error_None in Ex; lia].
    rewrite (nth_error_nth (upd B b l) i [] (x := x)), (nth_error_nth _ _ [] Ex); auto. now rewrite upd_other.
Qed.

Lemma base_eq s l f : okf s f -> exists B, base_of s l f = with_bufs s B /\ bufs_le (bufs s) B.
Proof.
  intros (A & _). unfold base_of.
  assert (D : exists B, s = with_bufs s B /\ bufs_le (bufs s) B) by (exists (bufs s); split; [now destruct s|apply bufs_le_refl]).
  destruct l; try exact D. destruct (c_present f) as [b|]; [|exact D]. cbn in A.
  destruct (nth_error (bufs s) b) as [lb|] eqn:E; [|apply nth_error_None in E; lia].
  eexists. split; [reflexivity|]. eapply bufs_le_upd; eauto. now rewrite repeat_length, (nth_error_nth _ _ [] E).
Qed.

Lemma in_rings_upd rs r R w :
  In w (flat_map r_items (upd rs r R)) -> In w (flat_map r_items rs) \/ In w (r_items R).
Proof.
  rewrite !in_flat_map. intros (x & H & J). apply In_nth_error in H as (n & H). rewrite nth_upd in H.
  destruct (n =? r); [destruct (r <? length rs); [injection H as <-; auto|discriminate]|].
  left. exists x. split; auto. now apply nth_error_In in H.
Qed.
Lemma in_ring_items rs r cap items b w : nth_error rs r = Some (RG cap items b) -> In w items -> In w (flat_map r_items rs).
Proof. intros H J. apply in_flat_map. eexists. split; [eapply nth_error_In; eauto|exact J]. Qed.

(** The shape of every step that touches one object. *)
Lemma pres1 s s' o f rc p :
  inv s -> nth_error (objs s) o = Some (PO f (S rc) true) ->
  objs s' = upd (objs s) o p -> length (users s') = length (users s) ->
  bufs_le (bufs s) (bufs s') -> okf s' (o_f p) -> o_live p = (0 <? o_rc p) ->
  (forall o', o' <> o -> nth o' (users s') 0 = nth o' (users s) 0) ->
  (forall o', o' <> o -> tot (isw o') s' + sumw (pdw (isw o')) (pend s') = tot (isw o') s + sumw (pdw (isw o')) (pend s)) ->
  o_rc p + nth o (users s) 0 + tot (isw o) s + sumw (pdw (isw o)) (pend s) =
    S rc + nth o (users s') 0 + tot (isw o) s' + sumw (pdw (isw o)) (pend s') ->
  (forall w, In w (wraps s') -> In w (wraps s) \/ (w_obj w < length (objs s) /\ okf s' (w_f w) /\ full (w_f w))) ->
  (forall r cap items b, nth_error (rings s') r = Some (RG cap items b) -> length items <= cap) ->
  (forall r w, In (r, w) (pend s') -> r < length (rings s')) -> inv s'.
Proof.
  intros I E HO HU HB HF HL HN HT HR HW HC HP. constructor; auto.
  - rewrite HO, upd_length, HU. exact (i_len s I).
  - intros o' p' N. rewrite HO, nth_upd in N. destruct (Nat.eqb_spec o' o) as [->|D].
    + destruct (o <? length (objs s)); [|discriminate]. injection N as <-. split; auto.
      destruct (i_rc s I _ _ E) as [A _]. cbn [o_rc] in A. lia.
    + destruct (i_rc s I _ _ N) as [A B]. split; auto. rewrite HN by auto. specialize (HT o' D). lia.
  - intros o' p' N. rewrite HO, nth_upd in N. destruct (Nat.eqb_spec o' o) as [->|D].
    + destruct (o <? length (objs s)); [|discriminate]. now injection N as <-.
    + eapply okf_mono; eauto. exact (i_of s I _ _ N).
  - intros w J. rewrite HO, upd_length. destruct (HW w J) as [K|K]; auto. destruct (i_w s I w K) as (A & B & C).
    repeat split; try apply C; auto; eapply okf_mono in B; eauto; apply B.
Qed.
(** And of those that touch none. *)
Lemma pres0 s s' :
  inv s -> objs s' = objs s -> users s' = users s -> bufs_le (bufs s) (bufs s') ->
  (forall o, tot (isw o) s' + sumw (pdw (isw o)) (pend s') = tot (isw o) s + sumw (pdw (isw o)) (pend s)) ->
  (forall w, In w (wraps s') -> exists v, In v (wraps s) /\ w_obj w = w_obj v /\ keyof (w_f w) = keyof (w_f v)) ->
  (forall r cap items b, nth_error (rings s') r = Some (RG cap items b) -> length items <= cap) ->
  (forall r w, In (r, w) (pend s') -> r < length (rings s')) -> inv s'.
Proof.
  intros I HO HU HB HT HW HC HP. constructor; auto.
  - rewrite HO, HU. exact (i_len s I).
  - intros o p N. rewrite HO in N. rewrite HU. destruct (i_rc s I _ _ N) as [A B]. split; auto. specialize (HT o). lia.
  - intros o p N. rewrite HO in N. eapply okf_mono; eauto. exact (i_of s I _ _ N).
  - intros w J. destruct (HW w J) as (v & K & -> & G). destruct (i_w s I v K) as (A & B & C). rewrite HO.
    unfold keyof in G. injection G as G1 G2 G3 G4. split; auto. split.
    + eapply okf_mono in B; [|exact HB]. unfold okf in *. now rewrite G1, G2, G3, G4.
    + unfold full in *. now rewrite G1, G3.
Qed.

Lemma tot_isw_other o o' f : o' <> o -> isw o' (WR f o) = 0.
Proof. intro H. now apply isw_other. Qed.

Ltac flds := cbn [objs users bufs rings pend held grave with_objs with_users with_bufs with_rings with_pend with_held with_grave] in *.

Lemma okf_set s fl b f : okf s f -> validb b s = true -> okf s (set_field fl b s f).
Proof.
  intros (A & B & C & D) V.
  assert (O : okb s b) by (destruct b; cbn in *; [now apply Nat.ltb_lt|auto]).
  destruct fl; cbn [set_field]; repeat split; cbn [c_present c_data c_extra c_psize]; auto. destruct b; auto.
Qed.

Lemma cap_upd s r cap items b : inv s -> r < length (rings s) -> length items <= cap -> forall r' cap' items' b',
  nth_error (upd (rings s) r (RG cap items b)) r' = Some (RG cap' items' b') -> length items' <= cap'.
Proof.
  intros I L C r' cap' items' b' N. rewrite nth_upd in N. destruct (r' =? r).
  - destruct (r <? length (rings s)); [|discriminate]. now injection N as <- <- <-.
  - exact (i_cap s I _ _ _ _ N).
Qed.

Lemma inv_step s l s' r e : inv s -> scase s l s' r e -> inv s'.
Proof.
  intros I C. destruct C as [
    |b|o fl b f rc E O V|o c d f rc E O|o f rc E O|o f rc E O|l r o f rc P E O F|l r o f rc e P E O F R X Y|l r o f rc cap items P E O F ER Q
    |r o f rc cap items E O F ER Q|r o f rc cap items E O F ER|i r w f rc cap items EP E ER Q|i how r w f rc e EP E
    |r cap b ER|r cap w items b f rc ER E|r cap items b ER|r c d cap f o items b ER|i fl k v f o b lb EH FO EB K
    |i r w cap items EH ER Q|i r w cap items EH ER|X D J S1].
  - constructor; flds.
    + rewrite !app_length, (i_len s I). reflexivity.
    + intros o p N. assert (T : tot (isw o) (with_users (with_objs s (objs s ++ [PO chunk0 1 true])) (users s ++ [1])) = tot (isw o) s) by reflexivity.
      rewrite T. destruct (Nat.lt_ge_cases o (length (objs s))) as [L|G].
      * rewrite nth_error_app1 in N by auto. rewrite app_nth1 by (rewrite (i_len s I); auto). exact (i_rc s I _ _ N).
      * rewrite nth_error_app2 in N by auto. destruct (o - length (objs s)) as [|n] eqn:Q; [|destruct n; discriminate].
        assert (o = length (objs s)) as -> by lia. injection N as <-. cbn [o_rc o_live]. rewrite app_nth2 by (rewrite (i_len s I); auto).
        rewrite (i_len s I), Nat.sub_diag. cbn [nth].
        assert (Z1 : tot (isw (length (objs s))) s = 0).
        { apply sumw_zero. intros n w N. apply nth_error_In in N. destruct (i_w s I w N) as (A & _). apply isw_other. lia. }
        rewrite Z1. rewrite tot_eq in Z1. split; [lia|reflexivity].
    + intros o p N. destruct (Nat.lt_ge_cases o (length (objs s))) as [L|G].
      * rewrite nth_error_app1 in N by auto. exact (i_of s I _ _ N).
      * rewrite nth_error_app2 in N by auto. destruct (o - length (objs s)) as [|n]; [|destruct n; discriminate]. injection N as <-. repeat split.
    + intros w N. rewrite app_length. destruct (i_w s I w N) as (A & B & C). repeat split; try apply B; try apply C. lia.
    + exact (i_cap s I).
    + exact (i_pend s I).
  - apply (pres0 s); auto; flds.
    + split; [rewrite app_length; lia|]. intros i L. now rewrite app_nth1.
    + intros w N. exists w. auto.
    + exact (i_cap s I).
    + exact (i_pend s I).
  - eapply (pres1 s _ o f rc); eauto; flds; auto; try exact (i_cap s I); try exact (i_pend s I); try apply bufs_le_refl; try lia.
    exact (okf_set s fl b f (i_of s I _ _ E) V).
  - eapply (pres1 s _ o f rc); eauto; flds; auto; try exact (i_cap s I); try exact (i_pend s I); try apply bufs_le_refl; try lia.
    exact (i_of s I _ _ E).
  - pose proof (lt_of_nth _ _ _ E) as L. rewrite <- (i_len s I) in L.
    eapply (pres1 s _ o f rc); eauto; flds; auto; try exact (i_cap s I); try exact (i_pend s I); try apply bufs_le_refl.
    + now rewrite upd_length.
    + exact (i_of s I _ _ E).
    + intros o' N. rewrite nth_upd0 by auto. now apply Nat.eqb_neq in N as ->.
    + rewrite nth_upd0, Nat.eqb_refl by auto. cbn [o_rc]. unfold tot, wraps. flds. lia.
  - pose proof (lt_of_nth _ _ _ E) as L. rewrite <- (i_len s I) in L. unfold owns in O. apply Nat.ltb_lt in O.
    destruct (dec_rc f rc) as [D1 D2].
    eapply (pres1 s _ o f rc); eauto; flds; auto; try exact (i_cap s I); try exact (i_pend s I); try apply bufs_le_refl.
    + now rewrite upd_length.
    + apply okf_dec. exact (i_of s I _ _ E).
    + intros o' N. rewrite nth_upd0 by auto. now apply Nat.eqb_neq in N as ->.
    + rewrite nth_upd0, Nat.eqb_refl by auto. rewrite D1. unfold tot, wraps. flds. lia.
  - exact I.
  - destruct (base_eq s l f (i_of s I _ _ E)) as (B & -> & HB).
    apply (pres0 s); auto; flds; try exact (i_cap s I); try exact (i_pend s I).
    intros w N. exists w. auto.
  - destruct (base_eq s l f (i_of s I _ _ E)) as (B & -> & HB).
    pose proof (sumw_upd (rgw (isw o)) (rings s) r _ (RG cap (items ++ [WR f o]) false) ER) as SR.
    eapply (pres1 s _ o f rc); eauto; flds; auto; try exact (i_pend s I).
    + apply okf_moved.
    + intros o' N. rewrite !tot_eq. flds.
      pose proof (sumw_upd (rgw (isw o')) (rings s) r _ (RG cap (items ++ [WR f o]) false) ER) as SR'.
      unfold rgw in SR' at 2 4. cbn [r_items] in SR'. rewrite sumw_app in SR'. cbn [sumw] in SR'. rewrite tot_isw_other in SR' by auto. lia.
    + rewrite !tot_eq. flds. unfold rgw in SR at 2 4. cbn [r_items] in SR. rewrite sumw_app in SR. cbn [sumw o_rc] in *.
      replace (isw o (WR f o)) with 1 in SR by (symmetry; exact (isw_same (WR f o))). lia.
    + intros w N. unfold wraps in *. flds. rewrite in_app_iff in N. destruct N as [N|N]; [|left; rewrite in_app_iff; auto].
      apply in_rings_upd in N as [N|N]; [left; rewrite in_app_iff; auto|]. cbn [r_items] in N. rewrite in_app_iff in N.
      destruct N as [N|[<-|[]]]; [left; rewrite in_app_iff; left; eapply in_ring_items; eauto|]. right. cbn [w_obj w_f].
      split; [eapply lt_of_nth; eauto|]. split; auto. eapply okf_mono; [|exact (i_of s I _ _ E)]. exact HB.
    + eapply cap_upd; eauto; [eapply lt_of_nth; eauto|]. rewrite app_length. cbn [length]. lia.
    + intros r0 w N. rewrite upd_length. exact (i_pend s I _ _ N).
  - eapply (pres1 s _ o f rc); eauto; flds; auto; try exact (i_cap s I); try apply bufs_le_refl.
    + apply okf_moved.
    + intros o' N. rewrite !tot_eq. flds. rewrite sumw_pdw, tot_isw_other by auto. lia.
    + rewrite !tot_eq. flds. rewrite sumw_pdw. cbn [o_rc].
      replace (isw o (WR f o)) with 1 by (symmetry; exact (isw_same (WR f o))). lia.
    + intros w N. unfold wraps in *. flds. rewrite map_app in N. rewrite !in_app_iff in N. rewrite !in_app_iff. cbn in N.
      destruct N as [N|[[N|[<-|[]]]|N]]; [auto|auto| |auto]. right. cbn [w_obj w_f].
      split; [eapply lt_of_nth; eauto|]. split; auto. exact (i_of s I _ _ E).
    + intros r0 w N. rewrite in_app_iff in N. destruct N as [N|[N|[]]]; [exact (i_pend s I _ _ N)|]. injection N as <- <-. eapply lt_of_nth; eauto.
  - destruct (base_eq s (LAddFree r o) f (i_of s I _ _ E)) as (B & -> & HB).
    eapply (pres1 s _ o f rc); eauto; flds; auto; try exact (i_cap s I); try exact (i_pend s I); try apply okf_moved; try lia.
  - pose proof (sumw_del (pdw (isw (w_obj w))) (pend s) i _ EP) as SD. unfold pdw at 2 in SD. cbn [snd] in SD. rewrite isw_same in SD.
    pose proof (sumw_upd (rgw (isw (w_obj w))) (rings s) r _ (RG cap (items ++ [w]) false) ER) as SR.
    eapply (pres1 s _ (w_obj w) f (S rc)); eauto; flds; auto; try apply bufs_le_refl.
    + exact (i_of s I _ _ E).
    + intros o' N. rewrite !tot_eq. flds.
      pose proof (sumw_upd (rgw (isw o')) (rings s) r _ (RG cap (items ++ [w]) false) ER) as SR'.
      pose proof (sumw_del (pdw (isw o')) (pend s) i _ EP) as SD'. unfold pdw at 2 in SD'. cbn [snd] in SD'. rewrite isw_other in SD' by auto.
      unfold rgw in SR' at 2 4. cbn [r_items] in SR'. rewrite sumw_app in SR'. cbn [sumw] in SR'. rewrite isw_other in SR' by auto. lia.
    + rewrite !tot_eq. flds. unfold rgw in SR at 2 4. cbn [r_items] in SR. rewrite sumw_app in SR. cbn [sumw o_rc] in *. rewrite isw_same in SR. lia.
    + intros v N. left. unfold wraps in *. flds. rewrite !in_app_iff in *. destruct N as [N|[N|N]]; [|right; left|auto].
      * apply in_rings_upd in N as [N|N]; auto. cbn [r_items] in N. rewrite in_app_iff in N.
        destruct N as [N|[<-|[]]]; [left; eapply in_ring_items; eauto|]. right. left. apply in_map_iff. exists (r, w). split; auto. now apply nth_error_In in EP.
      * apply in_map_iff in N as (x & <- & N). apply in_map. now apply in_del in N.
    + eapply cap_upd; eauto; [eapply lt_of_nth; eauto|]. rewrite app_length. cbn [length]. lia.
    + intros r0 v N. rewrite upd_length. apply in_del in N. exact (i_pend s I _ _ N).
  - pose proof (sumw_del (pdw (isw (w_obj w))) (pend s) i _ EP) as SD. unfold pdw at 2 in SD. cbn [snd] in SD. rewrite isw_same in SD.
    destruct (dec_rc (w_f w) rc) as [D1 D2].
    eapply (pres1 s _ (w_obj w) f (S rc)); eauto; flds; auto; try apply bufs_le_refl; try exact (i_cap s I).
    + apply okf_dec. apply (i_w s I w). eapply in_pend; eauto.
    + intros o' N. rewrite !tot_eq. flds.
      pose proof (sumw_del (pdw (isw o')) (pend s) i _ EP) as SD'. unfold pdw at 2 in SD'. cbn [snd] in SD'. rewrite isw_other in SD' by auto. lia.
    + rewrite !tot_eq, D1. flds. lia.
    + intros v N. left. unfold wraps in *. flds. rewrite !in_app_iff in *. destruct N as [N|[N|N]]; auto.
      right. left. apply in_map_iff in N as (x & <- & N). apply in_map. now apply in_del in N.
    + intros r0 v N. apply in_del in N. exact (i_pend s I _ _ N).
  - exact I.
  - pose proof (sumw_upd (rgw (isw (w_obj w))) (rings s) r _ (RG cap items b) ER) as SR.
    pose proof (lt_of_nth _ _ _ E) as L. rewrite <- (i_len s I) in L.
    eapply (pres1 s _ (w_obj w) f rc); eauto; flds; auto; try apply bufs_le_refl.
    + now rewrite upd_length.
    + apply (i_w s I w). eapply in_ring; eauto. now left.
    + intros o' N. rewrite nth_upd0 by auto. now apply Nat.eqb_neq in N as ->.
    + intros o' N. rewrite !tot_eq. flds.
      pose proof (sumw_upd (rgw (isw o')) (rings s) r _ (RG cap items b) ER) as SR'.
      unfold rgw in SR' at 2 4. cbn [r_items sumw] in SR'. rewrite isw_other in SR' by auto. lia.
    + rewrite nth_upd0, Nat.eqb_refl by auto. rewrite !tot_eq. flds. unfold rgw in SR at 2 4. cbn [r_items sumw o_rc] in *. rewrite isw_same in SR. lia.
    + intros v N. left. unfold wraps in *. flds. rewrite !in_app_iff in *. destruct N as [N|N]; auto.
      apply in_rings_upd in N as [N|N]; auto. cbn [r_items] in N. left. eapply in_ring_items; eauto. now right.
    + eapply cap_upd; eauto; [eapply lt_of_nth; eauto|]. pose proof (i_cap s I _ _ _ _ ER) as K. cbn [length] in K. lia.
    + intros r0 v N. rewrite upd_length. exact (i_pend s I _ _ N).
  - apply (pres0 s); auto; flds; try apply bufs_le_refl.
    + intro o. rewrite !tot_eq. flds. pose proof (sumw_upd (rgw (isw o)) (rings s) r _ (RG cap items true) ER) as SR.
      unfold rgw in SR at 2 4. cbn [r_items] in SR. lia.
    + intros w N. exists w. split; auto. unfold wraps in *. flds. rewrite !in_app_iff in *. destruct N as [N|N]; auto.
      apply in_rings_upd in N as [N|N]; auto. left. eapply in_ring_items; eauto.
    + eapply cap_upd; eauto; [eapply lt_of_nth; eauto|]. exact (i_cap s I _ _ _ _ ER).
    + intros r0 v N. rewrite upd_length. exact (i_pend s I _ _ N).
  - apply (pres0 s); auto; flds; try apply bufs_le_refl.
    + intro o'. rewrite !tot_eq. flds. pose proof (sumw_upd (rgw (isw o')) (rings s) r _ (RG cap items b) ER) as SR.
      unfold rgw in SR at 2 4. cbn [r_items sumw] in SR. rewrite sumw_app. cbn [sumw]. unfold isw in *. cbn [w_obj] in *. lia.
    + intros w N. unfold wraps in *. flds. rewrite !in_app_iff in *. destruct N as [N|[N|[[N|N]|N]]]; try (exists w; rewrite !in_app_iff; now auto 6).
      * apply in_rings_upd in N as [N|N]; exists w; rewrite !in_app_iff; auto. split; auto. left. eapply in_ring_items; eauto. now right.
      * destruct N as [<-|[]]. exists (WR f o). rewrite !in_app_iff. split; [left; eapply in_ring_items; eauto; now left|]. auto.
    + eapply cap_upd; eauto; [eapply lt_of_nth; eauto|]. pose proof (i_cap s I _ _ _ _ ER) as K. cbn [length] in K. lia.
    + intros r0 v N. rewrite upd_length. exact (i_pend s I _ _ N).
  - apply (pres0 s); auto; flds; try exact (i_cap s I); try exact (i_pend s I).
    + eapply bufs_le_upd; eauto. apply upd_length.
    + intros w N. exists w. auto.
  - apply (pres0 s); auto; flds; try apply bufs_le_refl.
    + intro o'. rewrite !tot_eq. flds. pose proof (sumw_upd (rgw (isw o')) (rings s) r _ (RG cap (items ++ [w]) false) ER) as SR.
      pose proof (sumw_del (isw o') (held s) i _ EH) as SD.
      unfold rgw in SR at 2 4. cbn [r_items] in SR. rewrite sumw_app in SR. cbn [sumw] in SR. lia.
    + intros v N. exists v. split; auto. unfold wraps in *. flds. rewrite !in_app_iff in *. destruct N as [N|[N|[N|N]]]; auto.
      * apply in_rings_upd in N as [N|N]; auto. cbn [r_items] in N. rewrite in_app_iff in N.
        destruct N as [N|[<-|[]]]; [left; eapply in_ring_items; eauto|]. right. right. left. now apply nth_error_In in EH.
      * apply in_del in N. auto.
    + eapply cap_upd; eauto; [eapply lt_of_nth; eauto|]. rewrite app_length. cbn [length]. lia.
    + intros r0 v N. rewrite upd_length. exact (i_pend s I _ _ N).
  - apply (pres0 s); auto; flds; try apply bufs_le_refl; try exact (i_cap s I); try exact (i_pend s I).
    + intro o'. rewrite !tot_eq. flds. pose proof (sumw_del (isw o') (held s) i _ EH) as SD. cbn [sumw]. lia.
    + intros v N. exists v. split; auto. unfold wraps in *. flds. rewrite !in_app_iff in *. cbn [In] in N.
      destruct N as [N|[N|[N|[<-|N]]]]; auto. * apply in_del in N. auto. * right. right. left. now apply nth_error_In in EH.
  - exact J.
Qed.

(** ** Every wrapper is accounted for by the log *)
Definition hw (h : nat -> key -> nat) (w : wrapper) : nat := h (w_obj w) (keyof (w_f w)).
Definition gain (h : nat -> key -> nat) (e : event) : nat := match e with VPut o k => h o k | _ => 0 end.
Definition loss (h : nat -> key -> nat) (e : event) : nat := match e with VBack o k | VOut o k | VLost o k => h o k | _ => 0 end.

Lemma tot_step s l s' r e h : inv s -> scase s l s' r e -> tot (hw h) s' + sumw (loss h) e = tot (hw h) s + sumw (gain h) e.
Proof.
  intros I C. destruct C as [
    |b|o fl b f rc E O V|o c d f rc E O|o f rc E O|o f rc E O|l r o f rc P E O F|l r o f rc e P E O F R X Y|l r o f rc cap items P E O F ER Q
    |r o f rc cap items E O F ER Q|r o f rc cap items E O F ER|i r w f rc cap items EP E ER Q|i how r w f rc e EP E
    |r cap b ER|r cap w items b f rc ER E|r cap items b ER|r c d cap f o items b ER|i fl k v f o b lb EH FO EB K
    |i r w cap items EH ER Q|i r w cap items EH ER|X D J S1]; cbn [sumw gain loss]; try reflexivity.
  - destruct (base_eq s l f (i_of s I _ _ E)) as (B & -> & HB). reflexivity.
  - destruct (base_eq s l f (i_of s I _ _ E)) as (B & -> & HB). rewrite !tot_eq. flds.
    pose proof (sumw_upd (rgw (hw h)) (rings s) r _ (RG cap (items ++ [WR f o]) false) ER) as SR.
    unfold rgw in SR at 2 4. cbn [r_items] in SR. rewrite sumw_app in SR. cbn [sumw] in SR. change (hw h (WR f o)) with (h o (keyof f)) in SR. lia.
  - rewrite !tot_eq. flds. rewrite sumw_pdw. change (hw h (WR f o)) with (h o (keyof f)). lia.
  - destruct (base_eq s (LAddFree r o) f (i_of s I _ _ E)) as (B & -> & HB). rewrite !tot_eq. flds. lia.
  - rewrite !tot_eq. flds.
    pose proof (sumw_upd (rgw (hw h)) (rings s) r _ (RG cap (items ++ [w]) false) ER) as SR.
    pose proof (sumw_del (pdw (hw h)) (pend s) i _ EP) as SD. unfold pdw at 2 in SD. cbn [snd] in SD.
    unfold rgw in SR at 2 4. cbn [r_items] in SR. rewrite sumw_app in SR. cbn [sumw] in SR. lia.
  - rewrite !tot_eq. flds. pose proof (sumw_del (pdw (hw h)) (pend s) i _ EP) as SD. unfold pdw at 2 in SD. cbn [snd] in SD.
    change (hw h w) with (h (w_obj w) (keyof (w_f w))) in SD. lia.
  - rewrite !tot_eq. flds. pose proof (sumw_upd (rgw (hw h)) (rings s) r _ (RG cap items b) ER) as SR.
    unfold rgw in SR at 2 4. cbn [r_items sumw] in SR. change (hw h w) with (h (w_obj w) (keyof (w_f w))) in SR. lia.
  - rewrite !tot_eq. flds. pose proof (sumw_upd (rgw (hw h)) (rings s) r _ (RG cap items true) ER) as SR.
    unfold rgw in SR at 2 4. cbn [r_items] in SR. lia.
  - rewrite !tot_eq. flds. pose proof (sumw_upd (rgw (hw h)) (rings s) r _ (RG cap items b) ER) as SR.
    unfold rgw in SR at 2 4. cbn [r_items sumw] in SR. rewrite sumw_app. cbn [sumw].
    change (hw h (WR (CF c d (c_present f) (c_psize f) (c_data f) (c_extra f)) o)) with (hw h (WR f o)). lia.
  - rewrite !tot_eq. flds. pose proof (sumw_upd (rgw (hw h)) (rings s) r _ (RG cap (items ++ [w]) false) ER) as SR.
    pose proof (sumw_del (hw h) (held s) i _ EH) as SD.
    unfold rgw in SR at 2 4. cbn [r_items] in SR. rewrite sumw_app in SR. cbn [sumw] in SR. lia.
  - rewrite !tot_eq. flds. pose proof (sumw_del (hw h) (held s) i _ EH) as SD. cbn [sumw]. lia.
  - rewrite !tot_eq. flds. rewrite !sumw_map. cbn [loss gain sumw].
    assert (A : sumw (fun x : wrapper => h (w_obj x) (keyof (w_f x))) (grave s) = sumw (hw h) (grave s)) by reflexivity.
    assert (B : sumw (fun _ : wrapper => 0) (grave s) = 0) by (apply sumw_zero; auto). lia.
Qed.

(** ** Executions, by snoc *)
Lemma exec_app ls ls' s log :
  exec (ls ++ ls') s log = match exec ls s log with End s1 log1 => exec ls' s1 log1 | x => x end.
Proof.
  revert s log; induction ls as [|l ls IH]; intros s log; cbn [app exec]; [reflexivity|].
  destruct (step l s) as [[|s1 r e]|]; auto.
Qed.
Lemma polite_app ls ls' s log :
  polite (ls ++ ls') s log -> polite ls s log /\ (forall s1 log1, exec ls s log = End s1 log1 -> polite ls' s1 log1).
Proof.
  revert s log; induction ls as [|l ls IH]; intros s log; cbn [app exec polite].
  - intro H. split; auto. intros s1 log1 E. now injection E as <- <-.
  - intros [A B]. destruct (step l s) as [[|s1 r e]|].
    + split; [auto|discriminate].
    + destruct (IH _ _ B) as [C D]. auto.
    + split; [auto|discriminate].
Qed.

Lemma exec_snoc l ls s s' log log' : exec (ls ++ [l]) s log = End s' log' ->
  exists s1 log1 r e, exec ls s log = End s1 log1 /\ step l s1 = Some (Done s' r e) /\ log' = log1 ++ e.
Proof.
  rewrite exec_app. destruct (exec ls s log) as [| |s1 log1]; try discriminate. cbn [exec].
  destruct (step l s1) as [[|s2 r e]|] eqn:E; try discriminate. intro H. injection H as <- <-. eauto 10.
Qed.

Theorem inv_exec caps ls s log : exec ls (init caps) [] = End s log -> inv s.
Proof.
  revert s log. induction ls as [|l ls IH] using rev_ind; intros s log H.
  - injection H as <- <-. apply inv_init.
  - apply exec_snoc in H as (s1 & log1 & r & e & H & S1 & ->). specialize (IH _ _ H).
    destruct (step_cases s1 IH _ _ S1) as (s2 & r2 & e2 & Q & C). injection Q as <- <- <-. eapply inv_step; eauto.
Qed.
Theorem no_crash caps ls : exec ls (init caps) [] <> Crash.
Proof.
  induction ls as [|l ls IH] using rev_ind; [discriminate|]. rewrite exec_app. destruct (exec ls (init caps) []) as [| |s log] eqn:E; try congruence.
  cbn [exec]. pose proof (inv_exec _ _ _ _ E) as I. destruct (step l s) as [out|] eqn:S1; [|discriminate].
  destruct (step_cases s I _ _ S1) as (s2 & r2 & e2 & -> & C). discriminate.
Qed.

Theorem tot_exec caps ls s log h : exec ls (init caps) [] = End s log -> tot (hw h) s + sumw (loss h) log = sumw (gain h) log.
Proof.
  revert s log. induction ls as [|l ls IH] using rev_ind; intros s log H.
  - injection H as <- <-. cbn [sumw]. unfold tot, wraps. cbn [init rings pend held grave map].
    assert (F : flat_map r_items (map (fun c => RG c [] false) caps) = []) by (induction caps; cbn; auto). now rewrite F.
  - apply exec_snoc in H as (s1 & log1 & r & e & H & S1 & ->). specialize (IH _ _ H). pose proof (inv_exec _ _ _ _ H) as I.
    destruct (step_cases s1 I _ _ S1) as (s2 & r2 & e2 & Q & C). injection Q as <- <- <-.
    pose proof (tot_step _ _ _ _ _ h I C). rewrite !sumw_app. lia.
Qed.

(** ** Logs in order *)
Lemma away_snoc log e o : away (log ++ [e]) o = upd_away o (away log o) e.
Proof. unfold away. now rewrite fold_left_app. Qed.
Definition only (o : nat) (h : key -> nat) (o' : nat) (k : key) : nat := if o' =? o then h k else 0.
Lemma order_sum log o h : in_order log ->
  sumw (gain (only o h)) log = sumw (loss (only o h)) log + match away log o with Some k => h k | None => 0 end.
Proof.
  induction 1 as [|log o' k H IH A|log o' k H IH A|log o' k H IH A|log o' k H IH A]; [reflexivity|..];
    rewrite !sumw_app, away_snoc; cbn [sumw gain loss upd_away]; unfold only in *; destruct (Nat.eqb_spec o' o) as [->|D]; try lia; rewrite A in IH; lia.
Qed.

Definition keyb (k k' : key) : nat := if key_eq_dec k k' then 1 else 0.
Lemma order_wrap s log w : (forall h, tot (hw h) s + sumw (loss h) log = sumw (gain h) log) -> in_order log ->
  In w (wraps s) -> away log (w_obj w) = Some (keyof (w_f w)).
Proof.
  intros T O H. pose proof (order_sum log (w_obj w) (keyb (keyof (w_f w))) O) as S1.
  specialize (T (only (w_obj w) (keyb (keyof (w_f w))))).
  pose proof (sumw_in (hw (only (w_obj w) (keyb (keyof (w_f w))))) (wraps s) w H) as G. unfold tot in T.
  unfold hw at 1, only at 1, keyb at 1 in G. rewrite Nat.eqb_refl in G. destruct (key_eq_dec (keyof (w_f w)) (keyof (w_f w))); [|congruence].
  destruct (away log (w_obj w)) as [k|]; [|lia]. unfold keyb at 3 in S1.
  destruct (key_eq_dec (keyof (w_f w)) k); [congruence|lia].
Qed.

(** Which chunks a step touches. *)
Definition about (o : nat) (e : event) : bool := match e with VPut o' _ | VBack o' _ | VOut o' _ | VLost o' _ => o' =? o end.
Lemma away_other log e o : forallb (fun x => negb (about o x)) e = true -> away (log ++ e) o = away log o.
Proof.
  induction e as [|x e IH] using rev_ind; intro H; [now rewrite app_nil_r|].
  rewrite forallb_app in H. apply andb_prop in H as [H1 H2]. cbn [forallb] in H2. rewrite andb_true_r in H2.
  rewrite app_assoc, away_snoc, (IH H1). destruct x; cbn [about upd_away] in *; destruct (o0 =? o); cbn in *; congruence.
Qed.
Lemma away_gone log e o : (exists x e1, e = e1 ++ [x] /\ about o x = true /\ match x with VPut _ _ => False | _ => True end) -> away (log ++ e) o = None.
Proof. intros (x & e1 & -> & A & B). rewrite app_assoc, away_snoc. destruct x; cbn [about upd_away] in *; [destruct B|..]; now rewrite A. Qed.
Lemma away_losts log g o : away (log ++ map (fun w => VLost (w_obj w) (keyof (w_f w))) g) o <> None -> away (log ++ map (fun w => VLost (w_obj w) (keyof (w_f w))) g) o = away log o.
Proof.
  induction g as [|w g IH] using rev_ind; intro H; [now rewrite app_nil_r|].
  rewrite map_app in *. cbn [map] in *. rewrite app_assoc, away_snoc in *. cbn [upd_away] in *. destruct (w_obj w =? o); [congruence|]. auto.
Qed.

(** Chunks that are away are empty. *)
Definition home (s : st) (log : list event) : Prop :=
  forall o p, nth_error (objs s) o = Some p -> away log o <> None -> c_data (o_f p) = None /\ c_present (o_f p) = None.

Lemma dec_key f rc b : c_data (o_f (dec (PO f rc b))) = None /\ c_present (o_f (dec (PO f rc b))) = None \/ o_f (dec (PO f rc b)) = f.
Proof. unfold dec. cbn [o_rc o_f]. destruct rc as [|[|rc]]; cbn; auto. Qed.

Lemma home_step s l s' r e log : inv s -> scase s l s' r e -> home s log ->
  match l with LSet o _ _ => away log o = None | _ => True end -> home s' (log ++ e).
Proof.
  intros I C H PL o1 p N A.
  assert (NB : forall l f, okf s f -> objs (base_of s l f) = objs s) by (intros l0 f0 K; now destruct (base_eq s l0 f0 K) as (B & -> & _)).
  destruct C as [
    |b|o fl b f rc E O V|o c d f rc E O|o f rc E O|o f rc E O|l r o f rc P E O F|l r o f rc e P E O F R X Y|l r o f rc cap items P E O F ER Q
    |r o f rc cap items E O F ER Q|r o f rc cap items E O F ER|i r w f rc cap items EP E ER Q|i how r w f rc e EP E
    |r cap b ER|r cap w items b f rc ER E|r cap items b ER|r c d cap f o items b ER|i fl k v f o b lb EH FO EB K
    |i r w cap items EH ER Q|i r w cap items EH ER|X D J S1]; flds; rewrite ?app_nil_r in *; try (now apply (H o1)).
  - destruct (Nat.lt_ge_cases o1 (length (objs s))) as [L|G].
    + rewrite nth_error_app1 in N by auto. now apply (H o1).
    + rewrite nth_error_app2 in N by auto. destruct (o1 - length (objs s)) as [|n]; [|destruct n; discriminate]. injection N as <-. auto.
  - rewrite nth_upd in N. destruct (Nat.eqb_spec o1 o) as [->|D]; [congruence|]. now apply (H o1).
  - rewrite nth_upd in N. destruct (Nat.eqb_spec o1 o) as [->|D]; [|now apply (H o1)].
    destruct (o <? length (objs s)); [|discriminate]. injection N as <-. cbn. exact (H _ _ E A).
  - rewrite nth_upd in N. destruct (Nat.eqb_spec o1 o) as [->|D]; [|now apply (H o1)].
    destruct (o <? length (objs s)); [|discriminate]. injection N as <-. exact (H _ _ E A).
  - rewrite nth_upd in N. destruct (Nat.eqb_spec o1 o) as [->|D]; [|now apply (H o1)].
    destruct (o <? length (objs s)); [|discriminate]. injection N as <-.
    destruct (dec_key f (S rc) true) as [K| ->]; auto. exact (H _ _ E A).
  - rewrite (NB _ _ (i_of s I _ _ E)) in N. now apply (H o1).
  - rewrite nth_upd in N. destruct (Nat.eqb_spec o1 o) as [->|D].
    + destruct (o <? length (objs s)); [|discriminate]. injection N as <-. auto.
    + rewrite away_other in A; [now apply (H o1)|]. cbn. apply not_eq_sym, Nat.eqb_neq in D. now rewrite D.
  - rewrite nth_upd in N. destruct (Nat.eqb_spec o1 o) as [->|D].
    + destruct (o <? length (objs s)); [|discriminate]. injection N as <-. auto.
    + rewrite away_other in A; [now apply (H o1)|]. cbn. apply not_eq_sym, Nat.eqb_neq in D. now rewrite D.
  - rewrite nth_upd in N. destruct (Nat.eqb_spec o1 o) as [->|D].
    + destruct (o <? length (objs s)); [|discriminate]. injection N as <-. auto.
    + rewrite away_other in A; [now apply (H o1)|]. cbn. apply not_eq_sym, Nat.eqb_neq in D. now rewrite D.
  - rewrite nth_upd in N. destruct (Nat.eqb_spec o1 (w_obj w)) as [->|D]; [|now apply (H o1)].
    destruct (w_obj w <? length (objs s)); [|discriminate]. injection N as <-. exact (H _ _ E A).
  - rewrite nth_upd in N. destruct (Nat.eqb_spec o1 (w_obj w)) as [->|D].
    + exfalso. apply A. rewrite away_snoc. cbn [upd_away]. now rewrite Nat.eqb_refl.
    + rewrite away_other in A; [now apply (H o1)|]. cbn. apply not_eq_sym, Nat.eqb_neq in D. now rewrite D.
  - rewrite nth_upd in N. destruct (Nat.eqb_spec o1 (w_obj w)) as [->|D].
    + exfalso. apply A. rewrite away_snoc. cbn [upd_away]. now rewrite Nat.eqb_refl.
    + rewrite away_other in A; [now apply (H o1)|]. cbn. apply not_eq_sym, Nat.eqb_neq in D. now rewrite D.
  - destruct S1 as [_ S2]. destruct (S2 _ _ N) as (p0 & N0 & [Q|[Q _]] & _); rewrite Q; [|now cbn].
    apply (H _ _ N0). rewrite away_losts in A; auto.
Qed.

Lemma order_step s l s' r e log : inv s -> scase s l s' r e -> home s log -> in_order log ->
  (forall h, tot (hw h) s + sumw (loss h) log = sumw (gain h) log) -> in_order (log ++ e).
Proof.
  intros I C H O T.
  assert (NP : forall o f rc, nth_error (objs s) o = Some (PO f (S rc) true) -> full f -> away log o = None).
  { intros o f rc E [F _]. destruct (away log o) eqn:A; auto. exfalso. apply F. destruct (H o _ E); [congruence|]. auto. }
  destruct C as [
    |b|o fl b f rc E O' V|o c d f rc E O'|o f rc E O'|o f rc E O'|l r o f rc P E O' F|l r o f rc e P E O' F R X Y|l r o f rc cap items P E O' F ER Q
    |r o f rc cap items E O' F ER Q|r o f rc cap items E O' F ER|i r w f rc cap items EP E ER Q|i how r w f rc e EP E
    |r cap b ER|r cap w items b f rc ER E|r cap items b ER|r c d cap f o items b ER|i fl k v f o b lb EH FO EB K
    |i r w cap items EH ER Q|i r w cap items EH ER|X D J S1]; rewrite ?app_nil_r; auto.
  - apply io_put; auto. eapply NP; eauto.
  - apply io_put; auto. eapply NP; eauto.
  - change [VPut o (keyof f); VLost o (keyof f)] with ([VPut o (keyof f)] ++ [VLost o (keyof f)]). rewrite app_assoc.
    apply io_lost; [apply io_put; auto; eapply NP; eauto|]. rewrite away_snoc. cbn [upd_away]. now rewrite Nat.eqb_refl.
  - apply io_back; auto. eapply order_wrap; eauto. eapply in_pend; eauto.
  - apply io_out; auto. eapply order_wrap; eauto. eapply in_ring; eauto. now left.
  - assert (G : forall g1 g2, g1 ++ g2 = grave s -> in_order (log ++ map (fun w => VLost (w_obj w) (keyof (w_f w))) g1)).
    { induction g1 as [|w g1 IH] using rev_ind; intros g2 Q; [now rewrite app_nil_r|].
      rewrite map_app. cbn [map]. rewrite app_assoc. rewrite <- app_assoc in Q. specialize (IH _ Q).
      apply io_lost; auto. set (h := keyb (keyof (w_f w))).
      pose proof (order_sum _ (w_obj w) h IH) as S2. specialize (T (only (w_obj w) h)). rewrite !sumw_app, !sumw_map in S2. cbn [gain loss] in S2.
      rewrite (sumw_zero (fun _ : wrapper => 0)) in S2 by auto.
      rewrite tot_eq, <- Q, !sumw_app in T. cbn [sumw app] in T. change (hw (only (w_obj w) h) w) with (only (w_obj w) h (w_obj w) (keyof (w_f w))) in T.
      assert (K : only (w_obj w) h (w_obj w) (keyof (w_f w)) = 1).
      { unfold only, h, keyb. rewrite Nat.eqb_refl. destruct (key_eq_dec (keyof (w_f w)) (keyof (w_f w))); congruence. }
      rewrite K in T. change (fun x : wrapper => only (w_obj w) h (w_obj x) (keyof (w_f x))) with (hw (only (w_obj w) h)) in S2.
      destruct (away (log ++ map (fun w0 : wrapper => VLost (w_obj w0) (keyof (w_f w0))) g1) (w_obj w)) as [k|]; [|lia].
      unfold h in S2 at 4. unfold keyb in S2. destruct (key_eq_dec (keyof (w_f w)) k); [congruence|lia]. }
    apply (G (grave s) []). apply app_nil_r.
Qed.

Theorem order_exec caps ls s log : polite ls (init caps) [] -> exec ls (init caps) [] = End s log -> in_order log /\ home s log.
Proof.
  revert s log. induction ls as [|l ls IH] using rev_ind; intros s log P H.
  - injection H as <- <-. split; [constructor|]. intros o p _ A. now destruct A.
  - apply polite_app in P as [P1 P2]. apply exec_snoc in H as (s1 & log1 & r & e & H & S1 & ->). specialize (P2 _ _ H). destruct P2 as [P2 _].
    destruct (IH _ _ P1 H) as [O HM]. pose proof (inv_exec _ _ _ _ H) as I.
    destruct (step_cases s1 I _ _ S1) as (s2 & r2 & e2 & Q & C). injection Q as <- <- <-. split.
    + eapply order_step; eauto. intro h. eapply tot_exec; eauto.
    + eapply home_step; eauto.
Qed.

(** ** Buffers are not shared *)
Definition nb (b : nat) (f : chunkf) : nat := count_occ Nat.eq_dec (bufs_of f) b.
Definition nbk (b : nat) (o : nat) (k : key) : nat :=
  match k with (p, _, d, x) => nb b (CF 0 0 p 0 d x) end.
Lemma nbk_eq b w : hw (nbk b) w = nb b (w_f w).
Proof. reflexivity. Qed.
Definition nobj (b : nat) (s : st) : nat := sumw (fun p => nb b (o_f p)) (objs s).
Lemma nb_moved b f : nb b (moved_from f) = 0.
Proof. reflexivity. Qed.
Lemma nb_dec b f rc v : nb b (o_f (dec (PO f rc v))) <= nb b f.
Proof. unfold dec. cbn [o_rc o_f]. destruct rc as [|[|rc]]; cbn [o_f]; rewrite ?nb_moved; lia. Qed.
Lemma nb_set b fl v s f : nb b (set_field fl v s f) <= nb b f + match v with Some i => if Nat.eq_dec i b then 1 else 0 | None => 0 end.
Proof.
  unfold nb, bufs_of. rewrite !count_occ_app. destruct fl, v; cbn [set_field c_present c_data c_extra count_occ];
    destruct (c_present f), (c_data f), (c_extra f); cbn [count_occ]; repeat destruct (Nat.eq_dec _ _); lia.
Qed.
Lemma shrunk_sum b l l' : shrunk l l' -> sumw (fun p => nb b (o_f p)) l' <= sumw (fun p => nb b (o_f p)) l.
Proof.
  revert l'; induction l as [|p l IH]; intros [|p' l'] [L H]; cbn [length] in L; try lia; cbn [sumw]; auto.
  destruct (H 0 p' eq_refl) as (q & Q & A & _). cbn in Q. injection Q as <-.
  assert (shrunk l l') as K.
  { split; [lia|]. intros o x N. destruct (H (S o) x N) as (y & Y & R). exists y. auto. }
  specialize (IH _ K). destruct A as [->|[-> _]]; rewrite ?nb_moved; lia.
Qed.

Lemma share_step s l s' r e b : inv s -> scase s l s' r e ->
  tot (hw (nbk b)) s' + nobj b s' <= tot (hw (nbk b)) s + nobj b s + count_occ Nat.eq_dec (assigned [l]) b.
Proof.
  intros I C. pose proof (tot_step _ _ _ _ _ (nbk b) I C) as T.
  assert (NB : forall l f, okf s f -> objs (base_of s l f) = objs s) by (intros l0 f0 K; now destruct (base_eq s l0 f0 K) as (B & -> & _)).
  unfold nobj in *. destruct C as [
    |b0|o fl b0 f rc E O V|o c d f rc E O|o f rc E O|o f rc E O|l r o f rc P E O F|l r o f rc e P E O F R X Y|l r o f rc cap items P E O F ER Q
    |r o f rc cap items E O F ER Q|r o f rc cap items E O F ER|i r w f rc cap items EP E ER Q|i how r w f rc e EP E
    |r cap b0 ER|r cap w items b0 f rc ER E|r cap items b0 ER|r c d cap f o items b0 ER|i fl k v f o b0 lb EH FO EB K
    |i r w cap items EH ER Q|i r w cap items EH ER|X D J S1]; flds; cbn [sumw gain loss] in T; rewrite ?(NB _ _ (i_of s I _ _ E)); try lia.
  - rewrite sumw_app. cbn [sumw o_f]. change (nb b chunk0) with 0. lia.
  - pose proof (sumw_upd (fun p => nb b (o_f p)) _ _ _ (PO (set_field fl b0 s f) (S rc) true) E) as U. cbn [o_f] in U.
    pose proof (nb_set b fl b0 s f) as N. unfold assigned. cbn [flat_map app]. destruct b0 as [i|]; cbn [app count_occ]; [destruct (Nat.eq_dec i b)|]; lia.
  - pose proof (sumw_upd (fun p => nb b (o_f p)) _ _ _ (PO (CF c d (c_present f) (c_psize f) (c_data f) (c_extra f)) (S rc) true) E) as U. cbn [o_f] in U.
    change (nb b (CF c d (c_present f) (c_psize f) (c_data f) (c_extra f))) with (nb b f) in U. lia.
  - pose proof (sumw_upd (fun p => nb b (o_f p)) _ _ _ (PO f (S (S rc)) true) E) as U. cbn [o_f] in U. lia.
  - pose proof (sumw_upd (fun p => nb b (o_f p)) _ _ _ (dec (PO f (S rc) true)) E) as U. cbn [o_f] in U. pose proof (nb_dec b f (S rc) true). lia.
  - pose proof (sumw_upd (fun p => nb b (o_f p)) _ _ _ (PO (moved_from f) (S (S rc)) true) E) as U. cbn [o_f] in U. rewrite nb_moved in U.
    change (nbk b o (keyof f)) with (nb b f) in T. lia.
  - pose proof (sumw_upd (fun p => nb b (o_f p)) _ _ _ (PO (moved_from f) (S (S (S rc))) true) E) as U. cbn [o_f] in U. rewrite nb_moved in U.
    change (nbk b o (keyof f)) with (nb b f) in T. lia.
  - pose proof (sumw_upd (fun p => nb b (o_f p)) _ _ _ (PO (moved_from f) (S rc) true) E) as U. cbn [o_f] in U. rewrite nb_moved in U. lia.
  - pose proof (sumw_upd (fun p => nb b (o_f p)) _ _ _ (PO f (S rc) true) E) as U. cbn [o_f] in U. lia.
  - pose proof (sumw_upd (fun p => nb b (o_f p)) _ _ _ (dec (PO (w_f w) (S rc) true)) E) as U. cbn [o_f] in U. pose proof (nb_dec b (w_f w) (S rc) true).
    change (nbk b (w_obj w) (keyof (w_f w))) with (nb b (w_f w)) in T. lia.
  - pose proof (sumw_upd (fun p => nb b (o_f p)) _ _ _ (PO (w_f w) (S rc) true) E) as U. cbn [o_f] in U.
    change (nbk b (w_obj w) (keyof (w_f w))) with (nb b (w_f w)) in T. lia.
  - pose proof (shrunk_sum b _ _ S1). rewrite !sumw_map in T. cbn [gain] in T. rewrite (sumw_zero (fun _ : wrapper => 0)) in T by auto. lia.
Qed.

Theorem share_exec caps ls s log b : exec ls (init caps) [] = End s log ->
  tot (hw (nbk b)) s + nobj b s <= count_occ Nat.eq_dec (assigned ls) b.
Proof.
  revert s log. induction ls as [|l ls IH] using rev_ind; intros s log H.
  - pose proof (tot_exec _ _ _ _ (nbk b) H) as T. injection H as <- <-. cbn in *. lia.
  - apply exec_snoc in H as (s1 & log1 & r & e & H & S1 & ->). specialize (IH _ _ H). pose proof (inv_exec _ _ _ _ H) as I.
    destruct (step_cases s1 I _ _ S1) as (s2 & r2 & e2 & Q & C). injection Q as <- <- <-.
    pose proof (share_step _ _ _ _ _ b I C) as G. unfold assigned in *. rewrite flat_map_app, count_occ_app. lia.
Qed.
