(** Invariants of synchronous sends. *)
From Coq Require Import ZArith List Lia Bool.
From Verif Require Import ConcBase SyncSendModel SyncSendSpec.
Import ListNotations.

Definition b2n (b : bool) : nat := if b then 1 else 0.
Definition inq (s : sst) (c : nat) : nat := count c (map gq_call (y_queue s)) + count c (map fst (y_posted s)).
Definition callw (h : nat) (k : call) : nat := if k_held k then count h (k_heaps k) else 0.

Record cok (c : nat) (k : call) (nq : nat) (es : list sev) (snds : list (list nat)) : Prop := {
  c_rc : k_rc k = b2n (k_wait k) + b2n (k_cb k);
  c_nq : nq = b2n (k_cb k);
  c_ends : ends c es + b2n (k_cb k) = 1;
  c_rets : returns c es + b2n (k_wait k) = 1;
  c_sem : k_wait k = true -> k_sem k + b2n (k_cb k) = 1;
  c_done : k_cb k = false -> done c (k_ec k) (k_bytes k) es;
  c_held : k_held k = true -> k_wait k = true;
  c_loose : k_held k = false -> loose c es \/ k_cb k = false;
  c_snds : nth_error snds c = Some (k_heaps k) }.

Record inv (s : sst) (es : list sev) (snds : list (list nat)) : Prop := {
  i_rc : forall h o, nth_error (y_heaps s) h = Some o -> hp_rc o = hp_user o + sumw (callw h) (y_calls s);
  i_range : forall c k h, nth_error (y_calls s) c = Some k -> In h (k_heaps k) -> h < length (y_heaps s);
  i_len : length snds = length (y_calls s);
  i_call : forall c k, nth_error (y_calls s) c = Some k -> cok c k (inq s c) es snds;
  i_none : forall c, length (y_calls s) <= c -> inq s c = 0 /\ ends c es = 0 /\ returns c es = 0 /\ bytes_of c es = 0;
  i_group : forall g k, In g (y_queue s) -> nth_error (y_calls s) (gq_call g) = Some k ->
              gq_heaps g = k_heaps k /\ gq_bytes g = bytes_of (gq_call g) es;
  i_posted : forall c e, In (c, e) (y_posted s) -> e <> ENone /\ bytes_of c es = 0;
  i_sent : forall c e b, In (VSent c e b) es -> b = bytes_of c es;
  i_refused : forall c e, In (VRefused c e) es -> e <> ENone /\ bytes_of c es = 0;
  i_ret : forall c e b, In (VRet c e b) es -> done c e b es;
  i_order : accepted es = sent es ++ map gq_call (y_queue s);
  i_cap : used (y_queue s) <= y_cap s;
  i_closed : y_mode s = Closed -> y_queue s = [];
  i_nowait : y_mode s <> Open -> forall k, In k (y_calls s) -> k_wait k = false }.

(** ** Small facts *)
Lemma ends_app c a b : ends c (a ++ b) = ends c a + ends c b. Proof. apply sumw_app. Qed.
Lemma returns_app c a b : returns c (a ++ b) = returns c a + returns c b. Proof. apply sumw_app. Qed.
Lemma bytes_app c a b : bytes_of c (a ++ b) = bytes_of c a + bytes_of c b. Proof. apply sumw_app. Qed.
Lemma accepted_app a b : accepted (a ++ b) = accepted a ++ accepted b. Proof. apply flat_map_app. Qed.
Lemma sent_app a b : sent (a ++ b) = sent a ++ sent b. Proof. apply flat_map_app. Qed.
Lemma done_app c e b x y : done c e b x -> done c e b (x ++ y).
Proof. intros [H|[H E]]; [left|right; split; [|exact E]]; apply in_or_app; auto. Qed.
Lemma loose_app c x y : loose c x -> loose c (x ++ y).
Proof. intros [H|H]; [left|right]; apply in_or_app; auto. Qed.
Lemma done_ends c e b es : done c e b es -> 1 <= ends c es.
Proof.
  intros [H|[H _]]; apply In_nth_error in H as (n & N); unfold ends;
    pose proof (sumw_ge (fun e => match e with VSent c' _ _ | VRefused c' _ => if c' =? c then 1 else 0 | _ => 0 end) _ _ _ N) as G;
    cbn beta iota in G; rewrite Nat.eqb_refl in G; exact G.
Qed.
Lemma count_app c a b : count c (a ++ b) = count c a + count c b. Proof. apply count_occ_app. Qed.
Lemma count_one c x : count c [x] = if x =? c then 1 else 0.
Proof. unfold count. cbn [count_occ]. destruct (Nat.eq_dec x c) as [->|N]; [now rewrite Nat.eqb_refl|]. apply Nat.eqb_neq in N. now rewrite N. Qed.
Lemma count_cons c x l : count c (x :: l) = (if x =? c then 1 else 0) + count c l.
Proof. change (x :: l) with ([x] ++ l). now rewrite count_app, count_one. Qed.
Lemma count_in c l : In c l -> 1 <= count c l. Proof. intro H. apply (count_occ_In Nat.eq_dec) in H. unfold count. lia. Qed.
Lemma nth_lt {A} (l : list A) n x : nth_error l n = Some x -> n < length l.
Proof. intro H. apply nth_error_Some. congruence. Qed.
Lemma remove_count {A} (f : A -> nat) (l : list A) j x c :
  nth_error l j = Some x -> count c (map f l) = (if f x =? c then 1 else 0) + count c (map f (firstn j l ++ skipn (S j) l)).
Proof.
  revert j. induction l as [|y l IH]; intros [|j] H; try discriminate H; cbn [nth_error] in H.
  - injection H as ->. cbn [firstn skipn app map]. now rewrite count_cons.
  - cbn [firstn app map]. rewrite (count_cons c (f y)). change (skipn (S (S j)) (y :: l)) with (skipn (S j) l). cbn [map].
    rewrite count_cons, (IH _ H). lia.
Qed.
Lemma remove_in {A} (l : list A) j x : In x (firstn j l ++ skipn (S j) l) -> In x l.
Proof.
  intro H. apply in_app_or in H as [H|H]; [rewrite <- (firstn_skipn j l)|rewrite <- (firstn_skipn (S j) l)]; apply in_or_app; auto.
Qed.

(** References taken and given back. *)
Lemma grab_length hs l : length (grab hs l) = length l.
Proof.
  revert l. induction hs as [|h r IH]; intro l; cbn [grab]; [reflexivity|].
  destruct (nth_error l h); rewrite IH; [apply upd_length|reflexivity].
Qed.
Lemma drop_length hs l : length (drop hs l) = length l.
Proof.
  revert l. induction hs as [|h r IH]; intro l; cbn [drop]; [reflexivity|].
  destruct (nth_error l h); rewrite IH; [apply upd_length|reflexivity].
Qed.
Lemma grab_nth hs l h : nth_error (grab hs l) h =
  match nth_error l h with Some o => Some {| hp_rc := hp_rc o + count h hs; hp_user := hp_user o |} | None => None end.
Proof.
  revert l. induction hs as [|x r IH]; intro l; cbn [grab].
  - destruct (nth_error l h) as [[a b]|]; [|reflexivity]. cbn [hp_rc hp_user]. change (count h []) with 0. now rewrite Nat.add_0_r.
  - rewrite count_cons. destruct (nth_error l x) as [o|] eqn:E; rewrite IH.
    + rewrite nth_upd. destruct (Nat.eqb_spec h x) as [->|N].
      * pose proof (nth_lt _ _ _ E) as L. apply Nat.ltb_lt in L. rewrite L, E, Nat.eqb_refl. cbn [hp_rc hp_user]. do 2 f_equal. lia.
      * assert (x =? h = false) as -> by (apply Nat.eqb_neq; congruence). reflexivity.
    + destruct (Nat.eqb_spec x h) as [->|N]; [now rewrite E|]. reflexivity.
Qed.
Lemma drop_nth hs l h : nth_error (drop hs l) h =
  match nth_error l h with Some o => Some {| hp_rc := hp_rc o - count h hs; hp_user := hp_user o |} | None => None end.
Proof.
  revert l. induction hs as [|x r IH]; intro l; cbn [drop].
  - destruct (nth_error l h) as [[a b]|]; [|reflexivity]. cbn [hp_rc hp_user]. change (count h []) with 0. now rewrite Nat.sub_0_r.
  - rewrite count_cons. destruct (nth_error l x) as [o|] eqn:E; rewrite IH.
    + rewrite nth_upd. destruct (Nat.eqb_spec h x) as [->|N].
      * pose proof (nth_lt _ _ _ E) as L. apply Nat.ltb_lt in L. rewrite L, E, Nat.eqb_refl. cbn [hp_rc hp_user]. do 2 f_equal. lia.
      * assert (x =? h = false) as -> by (apply Nat.eqb_neq; congruence). reflexivity.
    + destruct (Nat.eqb_spec x h) as [->|N]; [now rewrite E|]. reflexivity.
Qed.

Lemma accept_room room args : accept_all room args = None -> length args <= room.
Proof.
  revert room. induction args as [|[h v] r IH]; intros room H; cbn [accept_all length] in *; [lia|].
  destruct v, room as [|room]; try discriminate H. apply IH in H. lia.
Qed.
Lemma accept_err room args e : accept_all room args = Some e -> e <> ENone.
Proof.
  revert room. induction args as [|[h v] r IH]; intros room H; cbn [accept_all] in H.
  { discriminate H. }
  destruct v, room as [|room]; try (injection H as <-; discriminate). eauto.
Qed.
Lemma verdict_err room args e : verdict room args = Some e -> e <> ENone.
Proof. destruct args; [intro H; injection H as <-; discriminate|]. apply accept_err. Qed.
Lemma verdict_room room args : verdict room args = None -> length args <= room.
Proof. destruct args; [discriminate|]. apply accept_room. Qed.

Lemma cok_mono c k nq es e snds snds' :
  cok c k nq es snds -> ends c e = 0 -> returns c e = 0 -> cok c k nq (es ++ e) (snds ++ snds').
Proof.
  intros [A B C D E F G H I] X Y. constructor; auto.
  - rewrite ends_app. lia.
  - rewrite returns_app. lia.
  - intro Z. apply done_app. auto.
  - intro Z. destruct (H Z); [left; now apply loose_app|auto].
  - rewrite nth_error_app1; [exact I|now apply nth_lt in I].
Qed.

Lemma snds_step l : sends [l] = match l with LSend _ _ args => [map fst args] | _ => [] end.
Proof. destruct l; reflexivity. Qed.
Lemma sends_app a b : sends (a ++ b) = sends a ++ sends b.
Proof. induction a as [|l a IH]; [reflexivity|]. destruct l; cbn [app sends]; rewrite ?IH; reflexivity. Qed.

Lemma inv_init cap : inv (sst_init cap) [] [].
Proof.
  constructor; cbn [sst_init y_heaps y_calls y_queue y_posted y_mode y_cap]; auto.
  all: try (intros; match goal with H : nth_error [] ?c = Some _ |- _ => destruct c; discriminate H | H : In _ [] |- _ => destruct H end).
  apply Nat.le_0_l.
Qed.

(** ** Steps *)
Lemma inv_heaps s es snds hs :
  inv s es snds ->
  (forall h o, nth_error hs h = Some o -> hp_rc o = hp_user o + sumw (callw h) (y_calls s)) ->
  length (y_heaps s) <= length hs -> inv (with_heaps s hs) es snds.
Proof.
  intros [A B C D E F G H I J K L M N] X Y. constructor; auto.
  cbn [with_heaps y_heaps y_calls]. intros c k h Hc Hh. specialize (B c k h Hc Hh). lia.
Qed.

(** One call changes, the queue and the posted handlers shrink. *)
Lemma inv_call s es snds c k k' hs q p e :
  inv s es snds -> nth_error (y_calls s) c = Some k -> k_heaps k' = k_heaps k ->
  (forall h o, nth_error hs h = Some o -> hp_rc o + callw h k = hp_user o + sumw (callw h) (y_calls s) + callw h k') ->
  length hs = length (y_heaps s) ->
  let s' := {| y_cap := y_cap s; y_heaps := hs; y_calls := upd (y_calls s) c k'; y_queue := q; y_posted := p; y_mode := y_mode s |} in
  cok c k' (inq s' c) (es ++ e) snds ->
  (forall c', c' <> c -> inq s' c' = inq s c' /\ ends c' e = 0 /\ returns c' e = 0) ->
  (forall c', bytes_of c' e = 0) ->
  incl q (y_queue s) -> incl p (y_posted s) -> accepted e = [] ->
  sent es ++ map gq_call (y_queue s) = sent (es ++ e) ++ map gq_call q ->
  used q <= used (y_queue s) ->
  (forall c' r b, In (VSent c' r b) e -> b = bytes_of c' es) ->
  (forall c' r, In (VRefused c' r) e -> r <> ENone /\ bytes_of c' es = 0) ->
  (forall c' r b, In (VRet c' r b) e -> done c' r b es) ->
  (k_wait k' = true -> k_wait k = true) ->
  inv s' (es ++ e) snds.
Proof.
  intros [A B C D E F G H I J K L M N] Hk Hh Hrc Hlen s' Hcok Hoth Hby Hq Hp Hacc Hsent Hused HS HR HT Hw.
  pose proof (nth_lt _ _ _ Hk) as Lt.
  assert (Hnth : forall c' k0, nth_error (upd (y_calls s) c k') c' = Some k0 -> (c' = c /\ k0 = k') \/ (c' <> c /\ nth_error (y_calls s) c' = Some k0)).
  { intros c' k0. rewrite nth_upd. destruct (Nat.eqb_spec c' c) as [->|Nq]; [|auto].
    apply Nat.ltb_lt in Lt. rewrite Lt. intro Z. injection Z as <-. auto. }
  constructor; cbn [s' y_cap y_heaps y_calls y_queue y_posted y_mode].
  - intros h o Ho. specialize (Hrc h o Ho). pose proof (sumw_upd (callw h) _ _ _ k' Hk). lia.
  - intros c' k0 h Hc Hi. rewrite Hlen. destruct (Hnth _ _ Hc) as [[-> ->]|[_ Hc']]; [rewrite Hh in Hi; eauto|eauto].
  - now rewrite upd_length.
  - intros c' k0 Hc. destruct (Hnth _ _ Hc) as [[-> ->]|[Nq Hc']]; [exact Hcok|].
    destruct (Hoth c' Nq) as (Q1 & Q2 & Q3). rewrite Q1. rewrite <- (app_nil_r snds). apply cok_mono; auto.
  - rewrite upd_length. intros c' Hc. assert (Nq : c' <> c) by lia. destruct (Hoth c' Nq) as (Q1 & Q2 & Q3), (E c' Hc) as (R1 & R2 & R3 & R4).
    rewrite Q1, ends_app, returns_app, bytes_app, Hby. repeat split; lia.
  - intros g k0 Hg Hc. rewrite bytes_app, Hby, Nat.add_0_r. destruct (Hnth _ _ Hc) as [[Ec ->]|[_ Hc']].
    + rewrite Hh. apply F; [now apply Hq|now rewrite Ec].
    + apply F; [now apply Hq|exact Hc'].
  - intros c' r Hi. rewrite bytes_app, Hby, Nat.add_0_r. apply G. now apply Hp.
  - intros c' r b Hi. rewrite bytes_app, Hby, Nat.add_0_r. apply in_app_or in Hi as [Hi|Hi]; eauto.
  - intros c' r Hi. rewrite bytes_app, Hby, Nat.add_0_r. apply in_app_or in Hi as [Hi|Hi]; eauto.
  - intros c' r b Hi. apply done_app. apply in_app_or in Hi as [Hi|Hi]; eauto.
  - rewrite accepted_app, Hacc, app_nil_r, K. exact Hsent.
  - lia.
  - intro Z. specialize (M Z). rewrite M in Hq. apply incl_l_nil in Hq. exact Hq.
  - intros Z k0 Hi. apply In_nth_error in Hi as (c' & Hc). destruct (Hnth _ _ Hc) as [[-> ->]|[_ Hc']].
    + destruct (k_wait k') eqn:W; [|reflexivity]. rewrite <- (Hw eq_refl). apply (N Z). now apply nth_error_In in Hk.
    + apply (N Z). now apply nth_error_In in Hc'.
Qed.

Lemma inq_with s hs calls m q p c : inq {| y_cap := y_cap s; y_heaps := hs; y_calls := calls; y_queue := q; y_posted := p; y_mode := m |} c
  = count c (map gq_call q) + count c (map fst p).
Proof. reflexivity. Qed.

(** A count of what a call holds never exceeds the reference count. *)
Lemma held_le s es snds c k h o : inv s es snds -> nth_error (y_calls s) c = Some k -> nth_error (y_heaps s) h = Some o -> callw h k <= hp_rc o.
Proof. intros I Hk Ho. rewrite (i_rc s es snds I h o Ho). pose proof (sumw_ge (callw h) _ _ _ Hk). lia. Qed.

(** Releasing the references of a call. *)
Lemma release_rc s es snds c k k' h o :
  inv s es snds -> nth_error (y_calls s) c = Some k -> k_held k' = false ->
  nth_error (if k_held k then drop (k_heaps k) (y_heaps s) else y_heaps s) h = Some o ->
  hp_rc o + callw h k = hp_user o + sumw (callw h) (y_calls s) + callw h k'.
Proof.
  intros I Hk Hf Ho. unfold callw at 3. rewrite Hf. destruct (k_held k) eqn:Hd.
  - rewrite drop_nth in Ho. destruct (nth_error (y_heaps s) h) as [o'|] eqn:E; [|discriminate]. injection Ho as <-. cbn [hp_rc hp_user].
    pose proof (held_le _ _ _ _ _ _ _ I Hk E) as L. pose proof (i_rc s es snds I h o' E) as R.
    assert (Q : callw h k = count h (k_heaps k)) by (unfold callw; now rewrite Hd). lia.
  - pose proof (i_rc s es snds I h o Ho) as R. assert (Q : callw h k = 0) by (unfold callw; now rewrite Hd). lia.
Qed.
Lemma release_len s k : length (if k_held k then drop (k_heaps k) (y_heaps s) else y_heaps s) = length (y_heaps s).
Proof. destruct (k_held k); [apply drop_length|reflexivity]. Qed.

Lemma eqb_ne a b : a <> b -> (a =? b) = false. Proof. apply Nat.eqb_neq. Qed.

Lemma step_leave s es snds c k sem e :
  inv s es snds -> nth_error (y_calls s) c = Some k -> k_wait k = true ->
  (e = VIntr c \/ (e = VRet c (k_ec k) (k_bytes k) /\ k_cb k = false)) ->
  inv (leave s c k sem) (es ++ [e]) snds.
Proof.
  intros I Hk W He. pose proof (i_call s es snds I c k Hk) as [A B C D E F G H J].
  unfold leave, with_call. eapply inv_call; try eassumption; cbn [k_wait]; try reflexivity; try apply incl_refl; try (intros; discriminate).
  - intros h o Ho. eapply release_rc; try eassumption. reflexivity.
  - apply release_len.
  - rewrite W in *. cbn [b2n] in *. constructor; cbn [k_rc k_wait k_cb k_sem k_ec k_bytes k_held k_heaps b2n]; try discriminate; auto.
    + lia.
    + rewrite ends_app. destruct He as [->|[-> _]]; change (ends c [_]) with 0; lia.
    + rewrite returns_app. destruct He as [->|[-> _]]; unfold returns at 2; cbn [sumw]; rewrite Nat.eqb_refl; lia.
    + intro Z. apply done_app. auto.
    + intros _. destruct He as [->|[-> Z]]; [left; left; apply in_or_app; right; now left|auto].
  - intros c' Nq. assert (Ne : (c =? c') = false) by (apply eqb_ne; congruence).
    split; [reflexivity|]. destruct He as [->|[-> _]]; unfold ends, returns; cbn [sumw]; rewrite ?Ne; auto.
  - intro c'. destruct He as [->|[-> _]]; reflexivity.
  - destruct He as [->|[-> _]]; reflexivity.
  - rewrite sent_app. destruct He as [->|[-> _]]; cbn [sent flat_map]; now rewrite !app_nil_r.
  - intros c' r b [Z|[]]. destruct He as [->|[-> _]]; discriminate Z.
  - intros c' r [Z|[]]. destruct He as [->|[-> _]]; discriminate Z.
  - intros c' r b [Z|[]]. destruct He as [->|[-> Y]]; [discriminate Z|]. injection Z as <- <- <-. auto.
Qed.

Lemma step_clear s es snds c k :
  inv s es snds -> nth_error (y_calls s) c = Some k -> k_wait k = true -> k_held k = true ->
  inv (with_call s (drop (k_heaps k) (y_heaps s)) c
         {| k_form := k_form k; k_thread := k_thread k; k_heaps := k_heaps k; k_held := false; k_wait := k_wait k;
            k_cb := k_cb k; k_rc := k_rc k; k_sem := k_sem k; k_ec := k_ec k; k_bytes := k_bytes k |}) (es ++ [VClear c]) snds.
Proof.
  intros I Hk W Hd. pose proof (i_call s es snds I c k Hk) as [A B C D E F G H J].
  unfold with_call. eapply inv_call; try eassumption; cbn [k_wait]; try reflexivity; try apply incl_refl; auto.
  - intros h o Ho. eapply release_rc; try eassumption; [reflexivity|]. now rewrite Hd.
  - apply drop_length.
  - constructor; cbn [k_rc k_wait k_cb k_sem k_ec k_bytes k_held k_heaps]; auto.
    + rewrite ends_app. change (ends c [_]) with 0. lia.
    + rewrite returns_app. change (returns c [_]) with 0. lia.
    + intro Z. apply done_app. auto.
    + intros _. left. right. apply in_or_app. right. now left.
  - rewrite sent_app. cbn [sent flat_map]. now rewrite !app_nil_r.
  - intros c' r b [Z|[]]. discriminate Z.
  - intros c' r [Z|[]]. discriminate Z.
  - intros c' r b [Z|[]]. discriminate Z.
Qed.

(** The callback of a call, from the queue or posted. *)
Lemma step_callback s es snds c k q p e r b :
  inv s es snds -> nth_error (y_calls s) c = Some k ->
  (forall c', inq s c' = (if c =? c' then 1 else 0) + (count c' (map gq_call q) + count c' (map fst p))) ->
  incl q (y_queue s) -> incl p (y_posted s) -> used q <= used (y_queue s) ->
  sent es ++ map gq_call (y_queue s) = sent (es ++ [e]) ++ map gq_call q ->
  (e = VSent c r b /\ b = bytes_of c es \/ e = VRefused c r /\ b = 0 /\ r <> ENone /\ bytes_of c es = 0) ->
  inv (with_call (with_queue s q p) (y_heaps s) c
         {| k_form := k_form k; k_thread := k_thread k; k_heaps := k_heaps k; k_held := k_held k; k_wait := k_wait k;
            k_cb := false; k_rc := k_rc k - 1; k_sem := S (k_sem k); k_ec := r; k_bytes := b |}) (es ++ [e]) snds.
Proof.
  intros I Hk Hin Hq Hp Hu Hs He. pose proof (i_call s es snds I c k Hk) as [A B C D E F G H J].
  assert (Cb : k_cb k = true).
  { destruct (k_cb k) eqn:Z; [reflexivity|]. specialize (Hin c). rewrite Nat.eqb_refl in Hin. cbn [b2n] in B. lia. }
  rewrite Cb in *. cbn [b2n] in *.
  assert (He' : ends c [e] = 1 /\ (forall c', c' <> c -> ends c' [e] = 0) /\ (forall c', returns c' [e] = 0) /\ (forall c', bytes_of c' [e] = 0) /\ accepted [e] = [] /\ done c r b (es ++ [e])).
  { destruct He as [[-> _]|[-> [-> _]]]; unfold ends, returns, bytes_of, done; cbn [sumw]; rewrite ?Nat.eqb_refl; repeat split; auto.
    1,3: intros c' Nq; rewrite (eqb_ne c c') by congruence; reflexivity.
    - left. apply in_or_app. right. now left.
    - right. split; [apply in_or_app; right; now left|reflexivity]. }
  destruct He' as (E1 & E2 & E3 & E4 & E5 & E6).
  unfold with_call, with_queue. cbn [y_cap y_heaps y_calls y_queue y_posted y_mode].
  eapply inv_call; try eassumption; cbn [k_wait]; try reflexivity; auto.
  - intros h o Ho. pose proof (i_rc s es snds I h o Ho) as R. unfold callw at 3. cbn [k_held k_heaps]. unfold callw in *. lia.
  - rewrite inq_with. specialize (Hin c). rewrite Nat.eqb_refl in Hin.
    constructor; cbn [k_rc k_wait k_cb k_sem k_ec k_bytes k_held k_heaps b2n]; auto.
    + lia.
    + lia.
    + rewrite ends_app. lia.
    + rewrite returns_app, E3. lia.
    + intro Z. specialize (E Z). lia.
  - intros c' Nq. rewrite inq_with, Hin, (eqb_ne c c') by congruence. auto.
  - intros c' r' b' [Z|[]]. destruct He as [[-> Y]|[-> _]]; [|discriminate Z]. injection Z as <- <- <-. exact Y.
  - intros c' r' [Z|[]]. destruct He as [[-> _]|[-> (_ & Y)]]; [discriminate Z|]. injection Z as <- <-. exact Y.
  - intros c' r' b' [Z|[]]. destruct He as [[-> _]|[-> _]]; discriminate Z.
Qed.

Lemma queue_call s es snds g : inv s es snds -> In g (y_queue s) -> exists k, nth_error (y_calls s) (gq_call g) = Some k.
Proof.
  intros I Hg. destruct (nth_error (y_calls s) (gq_call g)) as [k|] eqn:E; [eauto|]. apply nth_error_None in E.
  destruct (i_none s es snds I _ E) as (Z & _). unfold inq in Z. pose proof (count_in _ _ (in_map gq_call _ _ Hg)). lia.
Qed.
Lemma posted_call s es snds c e : inv s es snds -> In (c, e) (y_posted s) -> exists k, nth_error (y_calls s) c = Some k.
Proof.
  intros I Hg. destruct (nth_error (y_calls s) c) as [k|] eqn:E; [eauto|]. apply nth_error_None in E.
  destruct (i_none s es snds I _ E) as (Z & _). unfold inq in Z. pose proof (count_in _ _ (in_map fst _ _ Hg)) as Q. cbn [fst] in Q. lia.
Qed.

Lemma step_finish s es snds g q r out :
  inv s es snds -> y_queue s = g :: q ->
  run_callback (with_queue s q (y_posted s)) (gq_call g) r (gq_bytes g) (VSent (gq_call g) r (gq_bytes g)) = Some out ->
  exists s' e, out = Ok s' e /\ inv s' (es ++ e) snds.
Proof.
  intros I Hq R. destruct (queue_call s es snds g I) as (k & Hk); [rewrite Hq; now left|].
  pose proof (i_call s es snds I _ k Hk) as [A B C D E F G H J].
  unfold run_callback in R. cbn [with_queue y_calls] in R. rewrite Hk in R.
  assert (P : 1 <= inq s (gq_call g)) by (unfold inq; rewrite Hq; cbn [map]; rewrite count_cons, Nat.eqb_refl; lia).
  destruct (k_rc k =? 0) eqn:Z; [apply Nat.eqb_eq in Z; lia|]. injection R as <-. do 2 eexists. split; [reflexivity|].
  cbn [with_queue y_heaps]. eapply step_callback; try eassumption.
  - intro c'. unfold inq. rewrite Hq. cbn [map]. rewrite count_cons. lia.
  - rewrite Hq. now apply incl_tl, incl_refl.
  - apply incl_refl.
  - rewrite Hq. unfold used. cbn [sumw]. lia.
  - rewrite sent_app, Hq. cbn [sent flat_map map app]. now rewrite <- app_assoc.
  - left. split; [reflexivity|]. destruct (i_group s es snds I g k) as [_ Q]; [rewrite Hq; now left|exact Hk|exact Q].
Qed.

Lemma step_posted s es snds j c r out :
  inv s es snds -> nth_error (y_posted s) j = Some (c, r) ->
  run_callback (with_queue s (y_queue s) (firstn j (y_posted s) ++ skipn (S j) (y_posted s))) c r 0 (VRefused c r) = Some out ->
  exists s' e, out = Ok s' e /\ inv s' (es ++ e) snds.
Proof.
  intros I Hj R. pose proof (nth_error_In _ _ Hj) as Hi. destruct (posted_call s es snds c r I Hi) as (k & Hk).
  pose proof (i_call s es snds I _ k Hk) as [A B C D E F G H J].
  unfold run_callback in R. cbn [with_queue y_calls] in R. rewrite Hk in R.
  assert (P : 1 <= inq s c) by (unfold inq; pose proof (count_in _ _ (in_map fst _ _ Hi)) as Q; cbn [fst] in Q; lia).
  destruct (k_rc k =? 0) eqn:Z; [apply Nat.eqb_eq in Z; lia|]. injection R as <-. do 2 eexists. split; [reflexivity|].
  cbn [with_queue y_heaps]. eapply step_callback; try eassumption.
  - intro c'. unfold inq. rewrite (remove_count fst _ _ _ c' Hj).
    change (fst (c, r)) with c. rewrite Nat.add_assoc, (Nat.add_comm (count c' (map gq_call (y_queue s)))), <- Nat.add_assoc. reflexivity.
  - apply incl_refl.
  - intros x Hx. exact (remove_in _ _ _ Hx).
  - lia.
  - rewrite sent_app. cbn [sent flat_map]. now rewrite app_nil_r.
  - right. destruct (i_posted s es snds I c r Hi). auto.
Qed.

Lemma step_read s es snds g q h n :
  inv s es snds -> y_queue s = g :: q ->
  inv (with_queue s ({| gq_call := gq_call g; gq_heaps := gq_heaps g; gq_bytes := gq_bytes g + n |} :: q) (y_posted s))
      (es ++ [VRead (gq_call g) h n]) snds.
Proof.
  intros I Hq. destruct (queue_call s es snds g I) as (kg & Hkg); [rewrite Hq; now left|].
  pose proof (i_call s es snds I _ kg Hkg) as Cg.
  pose proof I as [A B C D E F G H J K L M N O].
  assert (Hin : forall c, inq (with_queue s ({| gq_call := gq_call g; gq_heaps := gq_heaps g; gq_bytes := gq_bytes g + n |} :: q) (y_posted s)) c = inq s c).
  { intro c. unfold inq. cbn [with_queue y_queue y_posted map gq_call]. now rewrite Hq. }
  assert (By : forall c, bytes_of c [VRead (gq_call g) h n] = if gq_call g =? c then n else 0).
  { intro c. unfold bytes_of. cbn [sumw]. lia. }
  assert (P : inq s (gq_call g) = count (gq_call g) (map gq_call q) + count (gq_call g) (map fst (y_posted s)) + 1).
  { unfold inq. rewrite Hq. cbn [map]. rewrite count_cons, Nat.eqb_refl. lia. }
  assert (Q1 : inq s (gq_call g) = 1 /\ ends (gq_call g) es = 0).
  { destruct Cg as [_ X1 X2 _ _ _ _ _ _]. destruct (k_cb kg); cbn [b2n] in *; lia. }
  destruct Q1 as [Q1 Q2].
  constructor; cbn [with_queue y_cap y_heaps y_calls y_queue y_posted y_mode]; auto.
  - intros c k Hk. rewrite Hin. rewrite <- (app_nil_r snds). apply cok_mono; auto.
  - intros c Hc. rewrite Hin, ends_app, returns_app, bytes_app, By. destruct (E c Hc) as (R1 & R2 & R3 & R4).
    destruct (Nat.eqb_spec (gq_call g) c) as [Ez|]; [subst c; lia|]. change (ends c [_]) with 0. change (returns c [_]) with 0. repeat split; lia.
  - intros g' k [<-|Hg] Hk; cbn [gq_call gq_heaps gq_bytes] in *; rewrite bytes_app, By.
    + rewrite Nat.eqb_refl. destruct (F g k) as [-> ->]; [rewrite Hq; now left|exact Hk|auto].
    + assert (Ne : gq_call g <> gq_call g') by (intro Z; pose proof (count_in _ _ (in_map gq_call _ _ Hg)) as W; rewrite <- Z in W; lia).
      rewrite (eqb_ne _ _ Ne), Nat.add_0_r. apply F; [rewrite Hq; now right|exact Hk].
  - intros c e Hi. rewrite bytes_app, By. destruct (G c e Hi) as [X1 X2].
    assert (Ne : gq_call g <> c) by (intro Z; pose proof (count_in _ _ (in_map fst _ _ Hi)) as W; cbn [fst] in W; rewrite <- Z in W; lia).
    rewrite (eqb_ne _ _ Ne). split; [exact X1|lia].
  - intros c e b Hi. apply in_app_or in Hi as [Hi|[Hi|[]]]; [|discriminate Hi]. rewrite bytes_app, By, (H _ _ _ Hi).
    assert (W : 1 <= ends c es) by (eapply done_ends; left; exact Hi).
    assert (Ne : gq_call g <> c) by (intro Z; rewrite Z in Q2; lia).
    rewrite (eqb_ne _ _ Ne). lia.
  - intros c e Hi. apply in_app_or in Hi as [Hi|[Hi|[]]]; [|discriminate Hi]. rewrite bytes_app, By. destruct (J _ _ Hi) as [X1 X2].
    assert (W : 1 <= ends c es) by (eapply done_ends; right; split; [exact Hi|reflexivity]).
    assert (Ne : gq_call g <> c) by (intro Z; rewrite Z in Q2; lia).
    rewrite (eqb_ne _ _ Ne). split; [exact X1|lia].
  - intros c e b Hi. apply in_app_or in Hi as [Hi|[Hi|[]]]; [|discriminate Hi]. apply done_app. eauto.
  - rewrite accepted_app, sent_app. cbn [accepted sent flat_map map gq_call]. rewrite !app_nil_r, L, Hq. reflexivity.
  - rewrite Hq in M. unfold used in *. cbn [sumw gq_heaps] in *. exact M.
  - intro Z. specialize (N Z). rewrite N in Hq. discriminate Hq.
Qed.

Lemma step_mode s es snds m e : inv s es snds -> (e = [] \/ e = [VClosed]) -> (m = Closed -> y_queue s = []) ->
  (forall k, In k (y_calls s) -> k_wait k = false) -> inv (with_mode s m) (es ++ e) snds.
Proof.
  intros I He Hm Hw. assert (X : forall c, ends c e = 0 /\ returns c e = 0 /\ bytes_of c e = 0) by (intro c; destruct He as [-> | ->]; auto).
  assert (Y : forall x, In x (es ++ e) -> x = VClosed \/ In x es).
  { intros x Hx. apply in_app_or in Hx as [Hx|Hx]; [auto|]. destruct He as [-> | ->]; [destruct Hx|]. destruct Hx as [<-|[]]; auto. }
  pose proof I as [A B C D E F G H J K L M N O].
  constructor; cbn [with_mode y_cap y_heaps y_calls y_queue y_posted y_mode]; auto.
  - intros c k Hk. rewrite <- (app_nil_r snds). apply cok_mono; [now apply D|apply X|apply X].
  - intros c Hc. destruct (X c) as (X1 & X2 & X3), (E c Hc) as (R1 & R2 & R3 & R4). rewrite ends_app, returns_app, bytes_app.
    split; [exact R1|]. repeat split; lia.
  - intros g k Hg Hk. destruct (X (gq_call g)) as (_ & _ & X3). rewrite bytes_app, X3, Nat.add_0_r. auto.
  - intros c r Hi. destruct (X c) as (_ & _ & X3). rewrite bytes_app, X3, Nat.add_0_r. auto.
  - intros c r b Hi. destruct (X c) as (_ & _ & X3). rewrite bytes_app, X3, Nat.add_0_r. apply Y in Hi as [Hi|Hi]; [discriminate Hi|eauto].
  - intros c r Hi. destruct (X c) as (_ & _ & X3). rewrite bytes_app, X3, Nat.add_0_r. apply Y in Hi as [Hi|Hi]; [discriminate Hi|eauto].
  - intros c r b Hi. apply done_app. apply Y in Hi as [Hi|Hi]; [discriminate Hi|eauto].
  - rewrite accepted_app, sent_app. destruct He as [-> | ->]; cbn [accepted sent flat_map]; now rewrite !app_nil_r.
Qed.

Lemma owned_in s h : owned s h = true -> exists o, nth_error (y_heaps s) h = Some o /\ 0 < hp_user o.
Proof. unfold owned. destruct (nth_error (y_heaps s) h) as [o|]; [|discriminate]. intro H. apply Nat.ltb_lt in H. eauto. Qed.

Lemma step_send s es snds f t args s' e :
  inv s es snds -> y_mode s = Open -> (forall a, In a args -> owned s (fst a) = true) ->
  do_send s f t args = (s', e) -> inv s' (es ++ e) (snds ++ [map fst args]).
Proof.
  intros I Ho Hown R. unfold do_send in R. set (c := length (y_calls s)) in *. set (hs := map fst args) in *.
  set (v := verdict (y_cap s - used (y_queue s)) args) in *. injection R as <- <-.
  pose proof I as [A B C D E F G H J K L M N O].
  destruct (E c (Nat.le_refl _)) as (Z1 & Z2 & Z3 & Z4).
  match goal with |- inv {| y_cap := _; y_heaps := _; y_calls := _ ++ [?k0]; y_queue := ?q0; y_posted := ?p0; y_mode := _ |} _ _ =>
    set (k := k0); set (q := q0); set (p := p0) end.
  set (e := match v with None => [VAccept c] | Some _ => [] end).
  assert (Hin : forall c', count c' (map gq_call q) + count c' (map fst p) = inq s c' + if c =? c' then 1 else 0).
  { intro c'. unfold q, p, inq. destruct v; rewrite map_app, count_app; cbn [map gq_call fst]; rewrite count_one; lia. }
  assert (X : forall c', ends c' e = 0 /\ returns c' e = 0 /\ bytes_of c' e = 0) by (intro c'; unfold e; destruct v; auto).
  assert (Y : forall x, In x (es ++ e) -> x = VAccept c \/ In x es).
  { intros x Hx. apply in_app_or in Hx as [Hx|Hx]; [auto|]. unfold e in Hx. destruct v; [destruct Hx|]. destruct Hx as [<-|[]]; auto. }
  assert (Hnth : forall c' k', nth_error (y_calls s ++ [k]) c' = Some k' -> (c' = c /\ k' = k) \/ (c' < c /\ nth_error (y_calls s) c' = Some k')).
  { intros c' k' Hk. destruct (Nat.lt_ge_cases c' c) as [Lt|Ge].
    - right. split; [exact Lt|]. now rewrite nth_error_app1 in Hk.
    - rewrite nth_error_app2 in Hk by exact Ge. fold c in Hk. destruct (c' - c) as [|m] eqn:Em; [|destruct m; discriminate Hk].
      injection Hk as <-. left. split; [lia|reflexivity]. }
  constructor; cbn [y_cap y_heaps y_calls y_queue y_posted y_mode].
  - intros h o Hn. rewrite grab_nth in Hn. destruct (nth_error (y_heaps s) h) as [o'|] eqn:Eo; [|discriminate]. injection Hn as <-.
    cbn [hp_rc hp_user]. rewrite sumw_app, (A h o' Eo). cbn [sumw]. change (callw h k) with (count h hs). lia.
  - intros c' k' h Hk Hh. rewrite grab_length. destruct (Hnth _ _ Hk) as [[-> ->]|[_ Hk']]; [|eauto].
    change (In h hs) in Hh. apply in_map_iff in Hh as (a & <- & Ha). destruct (owned_in _ _ (Hown a Ha)) as (o & On & _). now apply nth_lt in On.
  - rewrite !app_length, C. reflexivity.
  - intros c' k' Hk. unfold inq. cbn [y_queue y_posted]. rewrite Hin. destruct (Hnth _ _ Hk) as [[-> ->]|[Lt Hk']].
    + destruct (X c) as (X1 & X2 & X3). rewrite Nat.eqb_refl, Z1.
      constructor; cbn [k k_rc k_wait k_cb k_sem k_ec k_bytes k_held k_heaps b2n]; try discriminate; auto.
      * rewrite ends_app. lia.
      * rewrite returns_app. lia.
      * rewrite nth_error_app2 by lia. rewrite C. fold c. rewrite Nat.sub_diag. reflexivity.
    + rewrite (eqb_ne c c'), Nat.add_0_r by lia. apply cok_mono; [now apply D|apply X|apply X].
  - rewrite app_length. cbn [length]. fold c. intros c' Hc. destruct (X c') as (X1 & X2 & X3), (E c') as (R1 & R2 & R3 & R4); [fold c; lia|].
    unfold inq. cbn [y_queue y_posted]. rewrite Hin, (eqb_ne c c'), ends_app, returns_app, bytes_app by lia. repeat split; lia.
  - intros g k' Hg Hk. destruct (X (gq_call g)) as (_ & _ & X3). rewrite bytes_app, X3, Nat.add_0_r.
    assert (Hg' : In g (y_queue s) \/ g = {| gq_call := c; gq_heaps := hs; gq_bytes := 0 |}).
    { unfold q in Hg. destruct v; [auto|]. apply in_app_or in Hg as [Hg|[Hg|[]]]; auto. }
    destruct Hg' as [Hg'| ->].
    + destruct (queue_call s es snds g I Hg') as (k0 & Hk0). rewrite nth_error_app1 in Hk by (now apply nth_lt in Hk0). auto.
    + cbn [gq_call gq_heaps gq_bytes] in *. destruct (Hnth _ _ Hk) as [[_ ->]|[Lt _]]; [|lia]. auto.
  - intros c' r Hi. destruct (X c') as (_ & _ & X3). rewrite bytes_app, X3, Nat.add_0_r. unfold p in Hi. destruct v as [r0|] eqn:Ev; [|auto].
    apply in_app_or in Hi as [Hi|[Hi|[]]]; [auto|]. injection Hi as <- <-. split; [|exact Z4]. eapply verdict_err. exact Ev.
  - intros c' r b Hi. destruct (X c') as (_ & _ & X3). rewrite bytes_app, X3, Nat.add_0_r. apply Y in Hi as [Hi|Hi]; [discriminate Hi|eauto].
  - intros c' r Hi. destruct (X c') as (_ & _ & X3). rewrite bytes_app, X3, Nat.add_0_r. apply Y in Hi as [Hi|Hi]; [discriminate Hi|eauto].
  - intros c' r b Hi. apply done_app. apply Y in Hi as [Hi|Hi]; [discriminate Hi|eauto].
  - rewrite accepted_app, sent_app, L. unfold e, q. destruct v; cbn [accepted sent flat_map]; rewrite ?map_app, !app_nil_r, ?app_assoc; reflexivity.
  - unfold q. destruct v as [r0|] eqn:Ev; [exact M|]. apply verdict_room in Ev. unfold used in *. rewrite sumw_app. cbn [sumw gq_heaps].
    unfold hs. rewrite map_length. lia.
  - rewrite Ho. discriminate.
  - rewrite Ho. intros Z. now destruct Z.
Qed.

Lemma is_open_eq m : is_open m = true -> m = Open. Proof. destruct m; [reflexivity|discriminate|discriminate]. Qed.
Lemma no_wait l : existsb k_wait l = false -> forall k, In k l -> k_wait k = false.
Proof.
  intros H k Hk. destruct (k_wait k) eqn:E; [|reflexivity]. assert (X : existsb k_wait l = true) by (apply existsb_exists; eauto). congruence.
Qed.

(** Every step keeps the invariant, or reads a heap that is gone; the callback
    state is always there. *)
Lemma inv_step s es snds l out :
  inv s es snds -> sstep s l = Some out ->
  match out with
  | Ok s' e => inv s' (es ++ e) (snds ++ sends [l])
  | Ub u => u = UHeap /\ exists g q j h n, l = LRead j n /\ y_queue s = g :: q /\ nth_error (gq_heaps g) j = Some h /\ live s h = false
  end.
Proof.
  intros I R. rewrite snds_step. destruct l as [|h|h|f t args|c|c|c|j n|r|j| |]; cbn [sstep] in R; rewrite ?app_nil_r.
  - destruct (py_free (y_mode s)); [|discriminate]. injection R as <-. rewrite app_nil_r. apply inv_heaps; [exact I| |rewrite app_length; cbn [length]; lia].
    intros h o Hn. destruct (Nat.lt_ge_cases h (length (y_heaps s))) as [Lt|Ge].
    + rewrite nth_error_app1 in Hn by exact Lt. apply (i_rc s es snds I h o Hn).
    + rewrite nth_error_app2 in Hn by exact Ge. destruct (h - length (y_heaps s)) as [|m] eqn:Em; [|destruct m; discriminate Hn]. injection Hn as <-.
      cbn [hp_rc hp_user]. rewrite sumw_zero; [reflexivity|]. intros c k Hk. unfold callw. destruct (k_held k); [|reflexivity].
      apply count_occ_not_In. intro Hi. pose proof (i_range s es snds I c k h Hk Hi). lia.
  - destruct (py_free (y_mode s) && owned s h) eqn:Ok; [|discriminate]. destruct (nth_error (y_heaps s) h) as [o|] eqn:Eo; [|discriminate].
    injection R as <-. rewrite app_nil_r. apply inv_heaps; [exact I| |now rewrite upd_length].
    intros h' o' Hn. rewrite nth_upd in Hn. destruct (Nat.eqb_spec h' h) as [->|_].
    + destruct (h <? length (y_heaps s)); [|discriminate]. injection Hn as <-. cbn [hp_rc hp_user]. rewrite (i_rc s es snds I h o Eo). lia.
    + exact (i_rc s es snds I h' o' Hn).
  - destruct (py_free (y_mode s) && owned s h) eqn:Ok; [|discriminate]. apply andb_true_iff in Ok as [_ Ow]. apply owned_in in Ow as (o0 & Eo & U).
    rewrite Eo in R. injection R as <-. rewrite app_nil_r. apply inv_heaps; [exact I| |now rewrite upd_length].
    intros h' o' Hn. rewrite nth_upd in Hn. destruct (Nat.eqb_spec h' h) as [->|_].
    + destruct (h <? length (y_heaps s)); [|discriminate]. injection Hn as <-. cbn [hp_rc hp_user]. rewrite (i_rc s es snds I h o0 Eo). lia.
    + exact (i_rc s es snds I h' o' Hn).
  - match type of R with (if ?b then _ else _) = _ => destruct b eqn:Ok end; [|discriminate].
    apply andb_true_iff in Ok as [Ok _]. apply andb_true_iff in Ok as [Ok Ow]. apply andb_true_iff in Ok as [Op _].
    destruct (do_send s f t args) as [s' e] eqn:Ed. injection R as <-. eapply step_send; try eassumption; [now apply is_open_eq|].
    intros a Ha. rewrite forallb_forall in Ow. auto.
  - destruct (py_free (y_mode s)); [|discriminate]. destruct (nth_error (y_calls s) c) as [k|] eqn:Hk; [|discriminate].
    destruct (k_form k) eqn:Ef; try discriminate. destruct (k_wait k && k_held k) eqn:Ok; [|discriminate]. apply andb_true_iff in Ok as [W Hd].
    injection R as <-. rewrite <- Ef. now apply step_clear.
  - destruct (py_free (y_mode s)); [|discriminate]. destruct (nth_error (y_calls s) c) as [k|] eqn:Hk; [|discriminate].
    destruct (k_wait k) eqn:W; [|discriminate]. pose proof (i_call s es snds I c k Hk) as [A B C D E F G H J]. rewrite W in *. cbn [b2n] in *.
    destruct (k_rc k =? 0) eqn:Z; [apply Nat.eqb_eq in Z; lia|]. destruct (k_sem k) as [|m] eqn:Es; [discriminate|]. injection R as <-.
    specialize (E eq_refl). apply step_leave; auto. right. split; [reflexivity|]. destruct (k_cb k); [cbn [b2n] in E; lia|reflexivity].
  - destruct (py_free (y_mode s)); [|discriminate]. destruct (nth_error (y_calls s) c) as [k|] eqn:Hk; [|discriminate].
    destruct (k_wait k) eqn:W; [|discriminate]. injection R as <-. apply step_leave; auto.
  - destruct (y_queue s) as [|g q] eqn:Eq; [discriminate|]. destruct (nth_error (gq_heaps g) j) as [h|] eqn:Ej; [|discriminate].
    destruct (live s h) eqn:Lv; injection R as <-.
    + now apply step_read.
    + split; [reflexivity|]. exists g, q, j, h, n. auto.
  - destruct (y_queue s) as [|g q] eqn:Eq; [discriminate|]. destruct (step_finish s es snds g q r out I Eq R) as (s' & e & -> & I'). exact I'.
  - destruct (nth_error (y_posted s) j) as [[c r]|] eqn:Ej; [|discriminate].
    destruct (step_posted s es snds j c r out I Ej R) as (s' & e & -> & I'). exact I'.
  - destruct (is_open (y_mode s) && negb (existsb k_wait (y_calls s))) eqn:Ok; [|discriminate]. apply andb_true_iff in Ok as [_ W].
    apply negb_true_iff in W. injection R as <-. apply step_mode; auto; [discriminate|]. now apply no_wait.
  - destruct (y_mode s) eqn:Em; try discriminate. destruct (y_queue s) eqn:Eq; [|discriminate]. injection R as <-. apply step_mode; auto.
    apply (i_nowait s es snds I). rewrite Em. discriminate.
Qed.

Lemma srun_app a : forall b s es,
  srun s (a ++ b) es = match srun s a es with Some (Ok s' es') => srun s' b es' | r => r end.
Proof.
  induction a as [|l a IH]; intros b s es; cbn [app srun]; [reflexivity|].
  destruct (sstep s l) as [[s' e|u]|]; auto.
Qed.

Lemma inv_run cap ls s es : srun (sst_init cap) ls [] = Some (Ok s es) -> inv s es (sends ls).
Proof.
  revert s es. induction ls as [|l ls IH] using rev_ind; intros s es R; [injection R as <- <-; apply inv_init|].
  rewrite srun_app in R. destruct (srun (sst_init cap) ls []) as [[s1 es1|u]|] eqn:E; try discriminate.
  specialize (IH _ _ eq_refl). cbn [srun] in R. destruct (sstep s1 l) as [[s2 e|u]|] eqn:St; try discriminate. injection R as <- <-.
  rewrite sends_app. exact (inv_step _ _ _ _ _ IH St).
Qed.
