(** Invariant of the slots of the ibverbs sender. *)
From Coq Require Import ZArith List Bool Arith Lia.
From Verif Require Import ConcBase IbvSlotModel.
Import ListNotations.

Definition is_last (p : pkt) : nat := if q_last p then 1 else 0.
Definition cfg_ok (c : config) : Prop := 1 <= batch c <= n_slots c /\ 1 <= max_poll c /\ all_errors c = false.

Lemma mod_differs a b n : a < b -> b < a + n -> a mod n <> b mod n.
Proof.
  intros H1 H2 E. assert (n <> 0) by lia. pose proof (Nat.div_mod a n H) as Da. pose proof (Nat.div_mod b n H) as Db. rewrite E in Da. pose proof (Nat.mod_upper_bound b n H).
  assert (a / n < b / n \/ b / n <= a / n) as [K|K] by lia.
  - assert (n * (a / n) + n <= n * (b / n)) by (replace (n * (a / n) + n) with (n * S (a / n)) by lia; apply Nat.mul_le_mono_l; lia). lia.
  - assert (n * (b / n) <= n * (a / n)) by (apply Nat.mul_le_mono_l; lia). lia.
Qed.
Lemma succ_mod_spec c k : n_slots c <> 0 -> succ_mod c (k mod n_slots c) = S k mod n_slots c.
Proof.
  intro H. unfold succ_mod. pose proof (Nat.mod_upper_bound k (n_slots c) H) as B. pose proof (Nat.add_mod_idemp_l k 1 (n_slots c) H) as E. rewrite !Nat.add_1_r in E. rewrite <- E.
  destruct (Nat.eqb_spec (S (k mod n_slots c)) (n_slots c)) as [K|K]; [rewrite K; symmetry; now apply Nat.mod_same|]. symmetry. apply Nat.mod_small. lia.
Qed.

(** The requests of the card, from position [a] on, with [e] the end of the last batch that
    has a completion *)
Fixpoint algn (n e a : nat) (l : list work) : Prop :=
  match l with
  | [] => a = e
  | w :: l' => w_slot w = a mod n /\ if w_sig w then e + w_id w = S a /\ algn n (S a) (S a) l' else algn n e (S a) l'
  end.
Lemma algn_app n l2 : forall l e a, algn n e a l -> algn n (a + length l) (a + length l) l2 -> algn n e a (l ++ l2).
Proof.
  induction l as [|w l IH]; intros e a H1 H2; cbn [app algn length] in *.
  - subst a. now rewrite Nat.add_0_r in H2.
  - destruct H1 as (H1 & H). split; [exact H1|]. rewrite <- Nat.add_succ_comm in H2. destruct (w_sig w); [destruct H as (H & K); split; [exact H|]|]; now apply IH.
Qed.

Definition unposted (p : pc) : nat := match p with Fill i _ _ | Post i _ _ _ => i | _ => 0 end.
Definition pending (p : pc) : nat := match p with Reap _ g _ => g | _ => 0 end.
Definition is_success (a : answer) : bool := match a with Success _ => true | _ => false end.
Definition pc_ok (c : config) (s : state) : Prop :=
  match at_ s with
  | Requested => avail s = n_slots c
  | Posted | Sleeping => True
  | Reap _ _ t => t <= n_slots c
  | Fill i _ f => i < batch c /\ f = (length (sent s) - i) mod n_slots c /\ batch c <= i + avail s
  | Post i _ f a => i <= batch c /\ f = (length (sent s) - i) mod n_slots c /\ (i = 0 -> is_success a = false)
  | Decide i _ a => i = 0 -> is_success a = false
  | Notify => avail s < n_slots c
  | Waiting => avail s < n_slots c /\ (arming c = Level -> event s = true \/ (armed s = true /\ cq s = []))
  end.
Record inv (c : config) (s : state) : Prop := {
  v_slots : length (slots s) = n_slots c;
  v_avail : avail s <= n_slots c;
  v_count : length (sent s) = length (log s) + (n_slots c - avail s);
  v_head : head s = length (log s) mod n_slots c;
  v_tail : tail s = length (sent s) mod n_slots c;
  v_held : forall j, length (log s) <= j < length (sent s) -> exists sl, nth_error (slots s) (j mod n_slots c) = Some sl /\ nth_error (sent s) j = Some (sl_pkt sl);
  v_algn : algn (n_slots c) (length (log s) + sumw c_id (cq s)) (length (wired s)) (infl s);
  v_end : length (log s) + sumw c_id (cq s) <= length (wired s);
  v_posted : length (wired s) + length (infl s) + unposted (at_ s) = length (sent s);
  v_wired : wired s = firstn (length (wired s)) (sent s);
  v_log : map fst (log s) = firstn (length (log s)) (sent s);
  v_done : done s + pending (at_ s) = sumw is_last (map fst (log s));
  v_cq : Forall (fun w => 1 <= c_id w) (cq s);
  v_pc : pc_ok c s
}.

Section Inv.
Context (c : config) (CO : cfg_ok c).
Lemma n_pos : n_slots c <> 0. Proof. destruct CO as (H & _). lia. Qed.

Lemma init_inv : inv c (init c).
Proof.
  constructor; cbn [init slots avail sent log head tail wired infl cq at_ done unposted pending sumw map]; rewrite ?repeat_length, ?Nat.mod_0_l by apply n_pos; auto; cbn [length]; try lia; try reflexivity.
Qed.

(** What the inner loop of reap does *)
Lemma reap_slots_spec ok : forall k s g, length (slots s) = n_slots c -> avail s + k <= n_slots c -> length (sent s) = length (log s) + (n_slots c - avail s) -> head s = length (log s) mod n_slots c ->
  (forall j, length (log s) <= j < length (sent s) -> exists sl, nth_error (slots s) (j mod n_slots c) = Some sl /\ nth_error (sent s) j = Some (sl_pkt sl)) ->
  map fst (log s) = firstn (length (log s)) (sent s) ->
  exists s' g', reap_slots c ok k s g = (Ok s', g') /\ (exists added, log s' = log s ++ map (fun p => (p, ok)) added /\ length added = k /\ g' = g + sumw is_last added) /\
    avail s' = avail s + k /\ head s' = length (log s') mod n_slots c /\ map fst (log s') = firstn (length (log s')) (sent s) /\
    slots s' = slots s /\ sent s' = sent s /\ tail s' = tail s /\ infl s' = infl s /\ cq s' = cq s /\ armed s' = armed s /\ event s' = event s /\ wired s' = wired s /\ done s' = done s /\ at_ s' = at_ s.
Proof.
  induction k as [|k IH]; intros s g H1 H2 H3 H4 H5 H6; cbn [reap_slots].
  - exists s, g. split; [reflexivity|]. split; [exists []; cbn [map sumw length]; rewrite app_nil_r; auto|]. rewrite Nat.add_0_r. repeat split; auto.
  - destruct (H5 (length (log s))) as (sl & S1 & S2); [lia|]. rewrite H4, S1. destruct (Nat.leb_spec (n_slots c) (avail s)); [lia|].
    set (s1 := {| at_ := at_ s; head := succ_mod c (length (log s) mod n_slots c) |}). assert (LL : length (log s ++ [(sl_pkt sl, ok)]) = S (length (log s))) by (rewrite app_length; cbn [length]; lia).
    destruct (IH s1 (g + if q_last (sl_pkt sl) then 1 else 0)) as (s' & g' & I1 & (added & I2 & I3 & I4) & I5 & I6 & I7 & I8); cbn [s1 slots avail sent log head] in *; rewrite ?LL; auto; try lia.
    + apply succ_mod_spec, n_pos.
    + intros j Hj. apply H5. lia.
    + rewrite map_app. cbn [map fst]. rewrite H6. clear - S2. revert S2. generalize (length (log s)). generalize (sent s). intros l n. revert n. induction l as [|x l IHl]; intros [|n] E; cbn [nth_error firstn app] in *; try discriminate; [injection E as ->; destruct l; reflexivity|]. f_equal. now apply IHl.
    + exists s', g'. split; [exact I1|]. split; [|split; [lia|repeat split; intuition]]. exists (sl_pkt sl :: added). cbn [map sumw length]. rewrite I2, <- app_assoc. cbn [app]. split; [reflexivity|]. split; [lia|]. unfold is_last at 1. lia.
Qed.

Lemma firstn_snoc' {A} (l : list A) k x : k <= length l -> firstn k (l ++ [x]) = firstn k l.
Proof. intro H. rewrite firstn_app. replace (k - length l) with 0 by lia. cbn [firstn]. apply app_nil_r. Qed.
Lemma firstn_next {A} (l : list A) n x : nth_error l n = Some x -> firstn n l ++ [x] = firstn (S n) l.
Proof. revert n. induction l as [|y l IH]; intros [|n] E; cbn [nth_error firstn app] in *; try discriminate; [injection E as ->; destruct l; reflexivity|]. f_equal. now apply IH. Qed.

(** Steps that only change the program counter and the number of completed groups *)
Lemma inv_pc s p d : inv c s -> unposted p = unposted (at_ s) -> d + pending p = done s + pending (at_ s) ->
  pc_ok c (set_pc p {| at_ := at_ s; head := head s; tail := tail s; avail := avail s; slots := slots s; infl := infl s; cq := cq s; armed := armed s; event := event s; sent := sent s; wired := wired s; log := log s; done := d |}) ->
  inv c (set_pc p {| at_ := at_ s; head := head s; tail := tail s; avail := avail s; slots := slots s; infl := infl s; cq := cq s; armed := armed s; event := event s; sent := sent s; wired := wired s; log := log s; done := d |}).
Proof. intros [V1 V2 V3 V4 V5 V6 V7 V8 V9 V10 V11 V12 V13 V14] U D P. constructor; cbn [set_pc slots avail sent log head tail wired infl cq at_ done]; auto; lia. Qed.
Lemma set_pc_done s p : set_pc p s = set_pc p {| at_ := at_ s; head := head s; tail := tail s; avail := avail s; slots := slots s; infl := infl s; cq := cq s; armed := armed s; event := event s; sent := sent s; wired := wired s; log := log s; done := done s |}.
Proof. reflexivity. Qed.

Lemma start_inv s : inv c s -> unposted (at_ s) = 0 -> pending (at_ s) = 0 -> inv c (start c s).
Proof. intros V U P. unfold start. rewrite set_pc_done. apply inv_pc; auto. cbn. lia. Qed.
Lemma event_inv s p a e : inv c s -> unposted p = unposted (at_ s) -> pending p = pending (at_ s) ->
  pc_ok c {| at_ := p; head := head s; tail := tail s; avail := avail s; slots := slots s; infl := infl s; cq := cq s; armed := a; event := e; sent := sent s; wired := wired s; log := log s; done := done s |} ->
  inv c {| at_ := p; head := head s; tail := tail s; avail := avail s; slots := slots s; infl := infl s; cq := cq s; armed := a; event := e; sent := sent s; wired := wired s; log := log s; done := done s |}.
Proof. intros [V1 V2 V3 V4 V5 V6 V7 V8 V9 V10 V11 V12 V13 V14] U D P. constructor; cbn [slots avail sent log head tail wired infl cq at_ done]; auto; lia. Qed.

Lemma end_reap_inv s r g t : inv c s -> at_ s = Reap r g t -> forall r', inv c (end_reap c r' g s).
Proof.
  intros V E r'. unfold end_reap. cbn [avail tail]. apply inv_pc; auto.
  - rewrite E. cbn [avail]. destruct (_ <? _); [destruct (channel c)|]; reflexivity.
  - rewrite E. cbn [avail pending]. destruct (_ <? _); [destruct (channel c)|]; cbn [pending]; lia.
  - cbn [avail]. unfold pc_ok, set_pc. cbn [at_ avail]. destruct CO as (B & _). destruct (Nat.ltb_spec (avail s) (batch c)); [destruct (channel c); cbn; auto; lia|]. cbn [sent]. split; [lia|]. split; [|lia]. rewrite Nat.sub_0_r. apply (v_tail c s V).
Qed.
Lemma do_reap_inv s r g t : inv c s -> at_ s = Reap r g t -> exists s', do_reap c r g t s = Ok s' /\ inv c s'.
Proof.
  intros V E. unfold do_reap. destruct (Nat.leb_spec t (avail s)) as [T|T]; [eauto using end_reap_inv|]. destruct (cq s) as [|w q] eqn:EQ.
  - destruct (r - 1) as [|r1]; [eauto using end_reap_inv|]. eexists. split; [reflexivity|]. rewrite set_pc_done. apply inv_pc; auto; rewrite ?E; auto. unfold pc_ok. cbn [at_ set_pc]. pose proof (v_pc c s V) as P. unfold pc_ok in P. now rewrite E in P.
  - set (s1 := {| at_ := at_ s; head := head s; tail := tail s; avail := avail s; slots := slots s; infl := infl s; cq := q; armed := armed s; event := event s; sent := sent s; wired := wired s; log := log s; done := done s |}).
    destruct V as [V1 V2 V3 V4 V5 V6 V7 V8 V9 V10 V11 V12 V13 V14]. rewrite EQ in *. cbn [sumw] in *. assert (HW : length (wired s) <= length (sent s)) by lia.
    destruct (reap_slots_spec (c_ok w) (c_id w) s1 g) as (s' & g' & R1 & (added & R2 & R3 & R4) & R5 & R6 & R7 & R8 & R9 & R10 & R11 & R12 & R13 & R14 & R15 & R16 & R17); cbn [s1 slots avail sent log head] in *; auto; [lia|].
    rewrite R1. eexists. split; [reflexivity|]. cbn [s1 tail infl cq armed event wired done at_] in *.
    assert (LL : length (log s') = length (log s) + c_id w) by (rewrite R2, app_length, map_length; lia). apply Forall_cons_iff in V13 as (_ & V13).
    constructor; cbn [set_pc slots avail sent log head tail wired infl cq at_ done unposted pending]; rewrite ?R5, ?R8, ?R9, ?R10, ?R11, ?R12, ?R15, ?R16, ?LL; auto; try lia.
    + now rewrite <- LL.
    + intros j Hj. apply V6. lia.
    + rewrite <- Nat.add_assoc. exact V7.
    + rewrite E in V9. exact V9.
    + now rewrite <- LL.
    + rewrite R2, map_app, map_map, sumw_app. cbn [fst]. rewrite map_id. rewrite <- V12, E. cbn [pending]. lia.
    + unfold pc_ok in *. rewrite E in V14. cbn [set_pc at_]. exact V14.
Qed.

Lemma do_fill_inv s i m f a : inv c s -> at_ s = Fill i m f -> exists s', do_fill c i m f a s = Ok s' /\ inv c s'.
Proof.
  intros V E. pose proof V as [V1 V2 V3 V4 V5 V6 V7 V8 V9 V10 V11 V12 V13 V14]. unfold pc_ok in V14. rewrite E in V14. destruct V14 as (P1 & P2 & P3).
  assert (NA : is_success a = false -> exists s', Ok (set_pc (Post i m f a) s) = Ok s' /\ inv c s').
  { intro NS. eexists. split; [reflexivity|]. rewrite set_pc_done. apply inv_pc; auto; rewrite ?E; auto. unfold pc_ok. cbn [at_ set_pc sent]. repeat split; auto. lia. }
  destruct a as [p| |]; cbn [do_fill]; [|now apply NA|now apply NA]. clear NA. pose proof n_pos as NP.
  assert (LT : tail s < length (slots s)) by (rewrite V5, V1; now apply Nat.mod_upper_bound). destruct (nth_error (slots s) (tail s)) as [sl|] eqn:ES; [|apply nth_error_None in ES; lia].
  eexists. split; [reflexivity|]. rewrite E in *. cbn [unposted pending] in *. assert (LS : length (sent s ++ [p]) = S (length (sent s))) by (rewrite app_length; cbn [length]; lia).
  constructor; cbn [set_pc slots avail sent log head tail wired infl cq at_ done]; rewrite ?LS; auto; try lia.
  - now rewrite upd_length.
  - rewrite V5. now apply succ_mod_spec.
  - intros j Hj. destruct (Nat.eq_dec j (length (sent s))) as [->|NE].
    + exists {| sl_pkt := p; sl_id := sl_id sl |}. rewrite <- V5, upd_same by lia. split; [reflexivity|]. rewrite nth_error_app2, Nat.sub_diag by lia. reflexivity.
    + destruct (V6 j ltac:(lia)) as (x & X1 & X2). exists x. rewrite upd_other; [|rewrite V5; apply mod_differs; lia]. split; [exact X1|]. rewrite nth_error_app1 by lia. exact X2.
  - destruct (Nat.ltb_spec (S i) (batch c)); cbn [unposted]; lia.
  - rewrite V10 at 1. symmetry. apply firstn_snoc'. lia.
  - rewrite V11. symmetry. apply firstn_snoc'. lia.
  - rewrite <- V12. destruct (_ <? _); reflexivity.
  - unfold pc_ok. cbn [set_pc at_]. destruct (Nat.ltb_spec (S i) (batch c)); cbn [set_pc sent avail]; rewrite LS; (split; [lia|]); (split; [rewrite P2; reflexivity|]); [lia|discriminate].
Qed.

Lemma do_post_inv s i m f a : inv c s -> at_ s = Post i m f a -> exists s', do_post c i m f a s = Ok s' /\ inv c s'.
Proof.
  intros V E. pose proof V as [V1 V2 V3 V4 V5 V6 V7 V8 V9 V10 V11 V12 V13 V14]. unfold pc_ok in V14. rewrite E in V14. destruct V14 as (P1 & P2 & P3). pose proof n_pos as NP. unfold do_post. destruct i as [|j].
  - eexists. split; [reflexivity|]. rewrite set_pc_done. apply inv_pc; auto; rewrite ?E; auto.
  - assert (LT : slot_at c f j < length (slots s)) by (rewrite V1; apply Nat.mod_upper_bound; exact NP). destruct (nth_error (slots s) (slot_at c f j)) as [sl|] eqn:ES; [|apply nth_error_None in ES; lia].
    eexists. split; [reflexivity|]. rewrite E in *. cbn [unposted pending] in *. set (n := n_slots c) in *. set (P := length (sent s) - S j) in *.
    set (sl' := upd (slots s) (slot_at c f j) {| sl_pkt := sl_pkt sl; sl_id := S j |}). set (ids := map (fun k => match nth_error sl' (slot_at c f k) with Some x => sl_id x | None => 0 end) (seq 0 (S j))).
    set (mk := fun k => {| w_slot := slot_at c f k; w_id := nth k ids 0; w_sig := k =? j |}). assert (SA : forall k, slot_at c f k = (P + k) mod n) by (intro k; unfold slot_at; fold n; rewrite P2; apply Nat.add_mod_idemp_l; exact NP).
    assert (IJ : nth j ids 0 = S j).
    { unfold ids. rewrite nth_indep with (d' := match nth_error sl' (slot_at c f 0) with Some x => sl_id x | None => 0 end) by (rewrite map_length, seq_length; lia).
      rewrite (map_nth (fun k => match nth_error sl' (slot_at c f k) with Some x => sl_id x | None => 0 end)), seq_nth by lia. cbn [plus]. unfold sl'. rewrite upd_same by exact LT. reflexivity. }
    assert (AL : forall d k, k + d = j -> algn n P (P + k) (map mk (seq k (S d)))).
    { induction d as [|d IH]; intros k Hk; cbn [seq map algn].
      - split; [cbn [mk w_slot]; apply SA|]. unfold mk. cbn [w_sig w_id]. replace k with j by lia. rewrite Nat.eqb_refl, IJ. split; [lia|reflexivity].
      - split; [cbn [mk w_slot]; apply SA|]. cbn [mk w_sig]. destruct (Nat.eqb_spec k j); [lia|]. specialize (IH (S k) ltac:(lia)). rewrite Nat.add_succ_r in IH. exact IH. }
    constructor; cbn [set_pc slots avail sent log head tail wired infl cq at_ done unposted pending]; auto; try lia.
    + unfold sl'. now rewrite upd_length.
    + intros k Hk. destruct (V6 k Hk) as (x & X1 & X2). unfold sl'. fold n. destruct (Nat.eq_dec (k mod n) (slot_at c f j)) as [K|K].
      * rewrite K, upd_same by exact LT. rewrite K, ES in X1. injection X1 as ->. eexists. split; [reflexivity|]. exact X2.
      * rewrite upd_other by exact K. eauto.
    + apply algn_app; [exact V7|]. replace (length (wired s) + length (infl s)) with (P + 0) by (unfold P; lia). rewrite Nat.add_0_r at 1. exact (AL j 0 ltac:(lia)).
    + rewrite app_length, map_length, seq_length. lia.
Qed.
Lemma do_decide_inv s i m a : inv c s -> at_ s = Decide i m a -> inv c (do_decide c i m a s).
Proof.
  intros V E. unfold do_decide. rewrite set_pc_done. pose proof (v_pc c s V) as P. unfold pc_ok in P. rewrite E in P. pose proof (v_avail c s V).
  apply inv_pc; auto; rewrite ?E.
  - destruct ((0 <? i) || m); [reflexivity|]. destruct a; try reflexivity; destruct (_ <? _); try destruct (channel c); reflexivity.
  - destruct ((0 <? i) || m); [reflexivity|]. destruct a; try reflexivity; destruct (_ <? _); try destruct (channel c); reflexivity.
  - unfold pc_ok. cbn [at_ set_pc avail]. destruct ((0 <? i) || m); [exact Logic.I|]. destruct a; try exact Logic.I; destruct (Nat.ltb_spec (avail s) (n_slots c)); try destruct (channel c); try exact Logic.I; cbn [set_pc avail]; lia.
Qed.
Lemma do_notify_inv s : inv c s -> at_ s = Notify -> inv c (do_notify c s).
Proof.
  intros V E. unfold do_notify, set_pc. cbn [head tail avail slots infl cq armed event sent wired log done]. pose proof (v_pc c s V) as P. unfold pc_ok in P. rewrite E in P.
  apply event_inv; auto; rewrite ?E; auto. unfold pc_ok. cbn [at_ avail event armed cq]. split; [exact P|]. intros ->. destruct (cq s); auto.
Qed.
Lemma do_card_inv s ok : inv c s -> infl s <> [] -> exists s', do_card c ok s = Ok s' /\ inv c s'.
Proof.
  intros V NE. pose proof V as [V1 V2 V3 V4 V5 V6 V7 V8 V9 V10 V11 V12 V13 V14]. unfold do_card. destruct (infl s) as [|w l] eqn:EI; [congruence|]. cbn [algn length] in *. destruct V7 as (A1 & A2).
  destruct (V6 (length (wired s))) as (sl & S1 & S2); [lia|]. rewrite A1, S1. eexists. split; [reflexivity|]. destruct CO as (_ & _ & NErr). rewrite NErr, andb_false_r, orb_false_r.
  assert (LW : length (wired s ++ [sl_pkt sl]) = S (length (wired s))) by (rewrite app_length; cbn [length]; lia).
  constructor; cbn [slots avail sent log head tail wired infl cq at_ done]; rewrite ?LW; auto; try lia.
  - rewrite sumw_app. destruct (w_sig w); cbn [sumw c_id].
    + destruct A2 as (A2 & A3). replace (length (log s) + (sumw c_id (cq s) + (w_id w + 0))) with (S (length (wired s))) by lia. exact A3.
    + rewrite Nat.add_0_r. exact A2.
  - rewrite sumw_app. destruct (w_sig w); cbn [sumw c_id]; [destruct A2|]; lia.
  - rewrite V10 at 1. now apply firstn_next.
  - apply Forall_app. split; [exact V13|]. destruct (w_sig w); [|constructor]. constructor; [|constructor]. cbn [c_id]. lia.
  - unfold pc_ok in *. cbn [at_ avail sent event armed cq]. destruct (at_ s); auto. destruct V14 as (P1 & P2). split; [exact P1|]. intro L. specialize (P2 L). destruct P2 as [P2|(P2 & P3)]; [left; now rewrite P2|]. rewrite P2, P3. destruct (w_sig w); cbn; auto. rewrite orb_true_r. now left.
Qed.

Lemma step_inv s l s' : inv c s -> step c l s = Ok s' -> inv c s'.
Proof.
  intros V E. destruct l as [|a| |ok]; cbn [step] in E.
  - destruct (at_ s) eqn:EA; try discriminate.
    + injection E as <-. apply start_inv; rewrite ?EA; auto.
    + destruct (do_reap_inv s _ _ _ V EA) as (s1 & E1 & I1). congruence.
    + destruct (do_post_inv s _ _ _ _ V EA) as (s1 & E1 & I1). congruence.
    + injection E as <-. now apply do_decide_inv.
    + injection E as <-. now apply do_notify_inv.
    + destruct (event s); [|discriminate]. injection E as <-. unfold do_event, start, set_pc. cbn [head tail avail slots infl cq armed event sent wired log done]. apply event_inv; rewrite ?EA; auto. unfold pc_ok. cbn [at_]. lia.
  - destruct (at_ s) eqn:EA; try discriminate. destruct (do_fill_inv s _ _ _ a V EA) as (s1 & E1 & I1). congruence.
  - destruct (at_ s) eqn:EA; try discriminate; injection E as <-; apply start_inv; rewrite ?EA; auto.
  - destruct (infl s) as [|w l] eqn:EI; [unfold do_card in E; rewrite EI in E; discriminate|]. destruct (do_card_inv s ok V) as (s1 & E1 & I1); [congruence|]. congruence.
Qed.
Lemma reach_inv s : reach c s -> inv c s.
Proof. induction 1; [apply init_inv|eauto using step_inv]. Qed.
End Inv.
