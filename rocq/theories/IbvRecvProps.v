(** C59: the ibverbs receiver gives the stream all frames that the card has received, once
    and in order, and does not miss any of them. *)
From Coq Require Import ZArith List Bool Arith Lia Permutation.
From Verif Require InprocProofs InprocProps IbvFrameModel IbvFrameSpec IbvFrameProps.
From Verif Require Import Base ConcBase CodecModel PacketSpec RecvPacketModel RecvPacketProofs RecvPacketProps SendPacketModel SendSpec SendPacketProofs SendGenProofs SendProps
  LiveHeapModel LiveHeapSpec LiveHeapProofs LiveHeapProps RecvHeapModel RecvHeapProofs RecvHeapProps ReassembleProofs E2EProofs E2EProps
  StreamModel StreamSpec StreamProofs StreamInvProofs StreamRunProofs StreamProps StreamE2EProofs StreamE2EProps RawModel RawSpec RawProps ReadersModel ReadersSpec ReadersProofs ReadersProps
  IbvRecvModel IbvRecvSpec IbvRecvProofs.
Import ListNotations.
Open Scope nat_scope.

Section Receiver.
Context (sc : sconfig) (c : config) (Cf : config_ok sc).
Notation next := (next sc c).
Notation reach := (reach sc c).

(** Nothing is undefined: no slot is read that the card may write to, neither queue
    overflows, no index is out of range. *)
Theorem C59_no_fault s l : reach s -> sane l -> next s l <> Fault.
Proof. intros R Sa. destruct (next_ok sc c Cf s l (reach_inv sc c Cf s R) Sa) as [E|(s' & E & _)]; rewrite E; discriminate. Qed.

(** The stream is as if it were given the packets of the frames directly. *)
Theorem C59_stream s : reach s -> exists ops, Forall2 (means (max_size c)) (log s) ops /\ Forall op_decoded ops /\ run sc (stream_new sc) ops = Some (str s, rs s).
Proof. intro R. apply (reach_inv sc c Cf s R). Qed.

(** The frames dealt with are those that the card received, once and in order; what is
    missing is in the completion queue or in hand, or the stream has stopped. *)
Theorem C59_order s : reach s -> exists rest, taken s = all_frames (log s) ++ cur s ++ rest /\
  (at_ s = Waiting \/ at_ s = Queued -> cur s = [] /\ (st_stopped (str s) = false -> length rest = length (filter c_ok (cq s)))).
Proof.
  intro R. destruct (reach_inv sc c Cf s R) as [_ _ (lost & T & TL) _ _ _ _ _ IO _]. eexists. split; [exact T|]. unfold pending. intros [K|K]; rewrite K in *; cbn [wcs_of is_gone inside app] in *; (split; [auto|]; intros _; rewrite (TL eq_refl); cbn [app]; apply map_length).
Qed.

(** Between handlers each slot is either posted or in the completion queue. *)
Theorem C59_slots s : reach s -> at_ s = Waiting \/ at_ s = Queued -> Permutation (rq s ++ map c_slot (cq s)) (seq 0 (n_slots c)).
Proof. intros R K. destruct (reach_inv sc c Cf s R) as [(leak & P & PL)]. unfold pending in P. destruct K as [K|K]; rewrite K in *; cbn [wcs_of chain_of is_gone app] in *; rewrite (PL eq_refl), app_nil_r in P; exact P. Qed.

(** While the reader waits for an event, one is there or has been asked for; and one is
    there if there are completions. *)
Theorem C59_wakeup s : reach s -> at_ s = Waiting -> armed s || event s = true /\ (cq s <> [] -> event s = true).
Proof. intros R K. destruct (reach_inv sc c Cf s R) as [_ _ _ _ IE IP _ _ _ _]. rewrite K in *. auto. Qed.

(** ** Termination of handlers *)
(** Steps that a handler may still take *)
Definition left (p : pc) : nat :=
  match p with
  | Iter i _ => (max_poll c - i) * (n_slots c + 3) + 1
  | Poll i _ => (max_poll c - i) * (n_slots c + 3)
  | Proc i _ wcs _ => (max_poll c - S i) * (n_slots c + 3) + length wcs + 2
  | _ => 0
  end.
Definition in_range (p : pc) : Prop := match p with Poll i _ | Proc i _ _ _ => i < max_poll c | _ => True end.
Lemma leave_out need s s' : leave sc c need s = Ok s' -> inside (at_ s') = false /\ cq s' = cq s /\ taken s' = taken s.
Proof. unfold leave. destruct (batch_end _ _ _); [|discriminate]. intro E. injection E as <-. cbn [at_ cq taken]. split; [|auto]. now destruct (is_stopped _), (channel c), need. Qed.
Lemma post_same l s s' : post c l s = Ok s' -> at_ s' = at_ s /\ cq s' = cq s /\ taken s' = taken s.
Proof. unfold post. destruct (_ <=? _); [|discriminate]. intro E. injection E as <-. auto. Qed.
Lemma link_left i need k wcs chain s s' : link_slot c i need k wcs chain s = Ok s' -> (exists ch, at_ s' = Proc i need wcs ch) /\ cq s' = cq s /\ taken s' = taken s.
Proof.
  unfold link_slot. destruct (_ =? _).
  - destruct (post c _ s) as [| |s1] eqn:E; try discriminate. apply post_same in E as (_ & E). intro K. injection K as <-. cbn [set_pc at_ cq taken]. eauto.
  - intro K. injection K as <-. cbn [set_pc at_ cq taken]. eauto.
Qed.
Lemma proc_left i need wcs chain s s' : do_proc sc c i need wcs chain s = Ok s' ->
  (inside (at_ s') = false \/ (exists w wcs' ch, wcs = w :: wcs' /\ at_ s' = Proc i need wcs' ch) \/ wcs = [] /\ at_ s' = Iter (S i) need) /\ cq s' = cq s /\ taken s' = taken s.
Proof.
  unfold do_proc. destruct wcs as [|w wcs].
  - destruct chain as [|k chain]; [intro K; injection K as <-; cbn [set_pc at_ cq taken]; auto|]. destruct (post c _ s) as [| |s1] eqn:E; try discriminate. apply post_same in E as (_ & E). intro K. injection K as <-. cbn [set_pc at_ cq taken]. auto.
  - assert (L : forall s0, link_slot c i need (c_slot w) wcs chain s0 = Ok s' -> cq s0 = cq s -> taken s0 = taken s -> (inside (at_ s') = false \/ (exists w0 wcs' ch, w :: wcs = w0 :: wcs' /\ at_ s' = Proc i need wcs' ch) \/ w :: wcs = [] /\ at_ s' = Iter (S i) need) /\ cq s' = cq s /\ taken s' = taken s).
    { intros s0 K E1 E2. apply link_left in K as ((ch & K) & K1 & K2). rewrite K1, K2. split; [|auto]. right; left. eauto. }
    destruct (c_ok w); [|intro K; now apply (L s)]. destruct (nth_error _ _) as [m|]; [|discriminate]. destruct (existsb _ _); [discriminate|]. destruct (do_frame sc c _ _) as [[x [|]]|]; [| |discriminate].
    + intro K. apply leave_out in K as (K & K1 & K2). cbn [cq taken] in *. auto.
    + intro K. eapply L; [exact K|reflexivity|reflexivity].
Qed.
Lemma run_left s s' : in_range (at_ s) -> inside (at_ s) = true -> next s Run = Ok s' ->
  in_range (at_ s') /\ (inside (at_ s') = false \/ left (at_ s') < left (at_ s)) /\ taken s' = taken s /\ (cq s = [] -> cq s' = []) /\ (forall i need, at_ s = Poll i need -> length (cq s) <= n_slots c -> cq s' = []).
Proof.
  intros IR I E. cbn [IbvRecvModel.next] in E. destruct (at_ s) as [| |i need|i need|i need wcs chain|] eqn:P; try discriminate.
  - unfold do_iter in E. destruct (Nat.ltb_spec i (max_poll c)) as [L|L].
    + assert (X : at_ s' = Poll i need \/ at_ s' = Poll i false) by (destruct (channel c && _); injection E as <-; auto). assert (Y : cq s' = cq s /\ taken s' = taken s) by (destruct (channel c && _); injection E as <-; auto). destruct Y as (Y1 & Y2). rewrite Y1.
      split; [destruct X as [-> | ->]; exact L|]. split; [right; destruct X as [-> | ->]; cbn [left]; lia|]. split; [exact Y2|]. split; [auto|]. discriminate.
    + apply leave_out in E as (E1 & E2 & E3). rewrite E2. split; [now destruct (at_ s')|]. split; [auto|]. split; [exact E3|]. split; [auto|]. discriminate.
  - injection E as <-. cbn [do_poll at_ cq taken in_range left inside]. cbn [in_range] in IR. split; [exact IR|]. split; [right|].
    + pose proof (firstn_le_length (n_slots c) (cq s)). replace (max_poll c - i) with (S (max_poll c - S i)) by lia. cbn [Nat.mul]. lia.
    + split; [reflexivity|]. split; [intros ->; apply skipn_nil|]. intros _ _ _ L. now apply skipn_all2.
  - apply proc_left in E as (E & E2 & E3). rewrite E2. split; [|split; [|split; [exact E3|split; [auto|discriminate]]]].
    + destruct E as [E|[(w & wcs' & ch & _ & ->)|(_ & ->)]]; [now destruct (at_ s')|exact IR|exact Logic.I].
    + destruct E as [E|[(w & wcs' & ch & -> & ->)|(-> & ->)]]; [now left|right; cbn [left length]; lia|right; cbn [left length]; lia].
Qed.
Lemma next_range s l s' : in_range (at_ s) -> next s l = Ok s' -> in_range (at_ s').
Proof.
  intros IR E. destruct (inside (at_ s)) eqn:IN.
  - destruct l as [f| | | |stp]; cbn [IbvRecvModel.next] in E.
    + destruct (rq s); [discriminate|]. destruct (_ <=? _)%Z; [|discriminate]. unfold complete in E. destruct (_ <? _); [|discriminate]. injection E as <-. exact IR.
    + destruct (rq s); [discriminate|]. unfold complete in E. destruct (_ <? _); [|discriminate]. injection E as <-. exact IR.
    + exact (proj1 (run_left s s' IR IN E)).
    + destruct (at_ s); discriminate.
    + destruct (at_ s); discriminate.
  - destruct l as [f| | | |stp]; cbn [IbvRecvModel.next] in E.
    + destruct (rq s); [discriminate|]. destruct (_ <=? _)%Z; [|discriminate]. unfold complete in E. destruct (_ <? _); [|discriminate]. injection E as <-. exact IR.
    + destruct (rq s); [discriminate|]. unfold complete in E. destruct (_ <? _); [|discriminate]. injection E as <-. exact IR.
    + destruct (at_ s); try discriminate; [destruct (event s); [|discriminate]|]; injection E as <-; unfold enter; destruct (st_stopped _); exact Logic.I.
    + destruct (at_ s); try discriminate. destruct (st_stopped _); [injection E as <-; exact Logic.I|]. apply leave_out in E as (E & _). now destruct (at_ s').
    + destruct (at_ s) eqn:P; try discriminate; unfold step_user in E; destruct (step sc (str s) _) as [[? ?]|]; try discriminate; injection E as <-; cbn [at_]; rewrite P; exact Logic.I.
Qed.
Lemma reach_range s : reach s -> in_range (at_ s).
Proof. induction 1 as [|s l s' R IH Sa E]; [exact Logic.I|]. exact (next_range s l s' IH E). Qed.
(** Inside a handler only [Run] changes where it is. *)
Lemma other_stays s l s' : inside (at_ s) = true -> l <> Run -> next s l = Ok s' -> at_ s' = at_ s.
Proof.
  intros IN N E. destruct l as [f| | | |stp]; cbn [IbvRecvModel.next] in E; [| |congruence| |]; try (destruct (at_ s); discriminate).
  - destruct (rq s); [discriminate|]. destruct (_ <=? _)%Z; [|discriminate]. unfold complete in E. destruct (_ <? _); [|discriminate]. now injection E as <-.
  - destruct (rq s); [discriminate|]. unfold complete in E. destruct (_ <? _); [|discriminate]. now injection E as <-.
Qed.
Definition is_run (l : label) : bool := match l with Run => true | _ => false end.
(** The reader is only blocked while waiting for an event, or when the stream has stopped;
    and a handler ends after a bounded number of its steps, whatever the card does. *)
Theorem C59_progress s : reach s -> next s Run = Blocked -> (at_ s = Waiting /\ event s = false) \/ (at_ s = Gone /\ st_stopped (str s) = true).
Proof.
  intros R E. pose proof (reach_inv sc c Cf s R) as I. destruct (at_ s) as [| |i need|i need|i need wcs chain|] eqn:P; cbn [IbvRecvModel.next] in E; rewrite P in E; try discriminate.
  - destruct (event s) eqn:V; [discriminate|auto].
  - destruct (do_iter_ok sc c Cf s i need I P) as (s' & K & _). congruence.
  - destruct (do_proc_ok sc c Cf s i need wcs chain I P) as (s' & K & _). congruence.
  - right. split; [reflexivity|]. apply (i_gone _ _ _ I). now rewrite P.
Qed.
Theorem C59_handler_ends s ls s' : reach s -> Forall sane ls -> run_labels sc c ls s = Ok s' -> max_poll c * (n_slots c + 3) + 1 < length (filter is_run ls) ->
  exists ls1 ls2 s1, ls = ls1 ++ ls2 /\ run_labels sc c ls1 s = Ok s1 /\ inside (at_ s1) = false.
Proof.
  intros R Sa E L. assert (LB : left (at_ s) <= max_poll c * (n_slots c + 3) + 1).
  { pose proof (reach_range s R) as IR. pose proof (slots_nodup sc c s (reach_inv sc c Cf s R)) as (_ & _ & LN). unfold pending in LN. rewrite app_length in LN. assert (M : forall i, (max_poll c - i) * (n_slots c + 3) <= max_poll c * (n_slots c + 3)) by (intro; apply Nat.mul_le_mono_r; lia).
    destruct (at_ s) as [| |i need|i need|i need wcs chain|]; cbn [left in_range wcs_of] in *; try (specialize (M i)); try lia.
    assert (M2 : S (max_poll c - S i) * (n_slots c + 3) <= max_poll c * (n_slots c + 3)) by (apply Nat.mul_le_mono_r; lia). cbn [Nat.mul] in M2. lia. }
  assert (L2 : left (at_ s) < length (filter is_run ls)) by lia. clear L LB. revert s R E L2. induction Sa as [|l ls S1 Sa IH]; intros s R E L2; [cbn in L2; lia|].
  destruct (inside (at_ s)) eqn:IN; [|exists [], (l :: ls), s; auto]. cbn [run_labels] in E. destruct (next s l) as [| |s1] eqn:N; try discriminate. pose proof (reach_next sc c s l s1 R S1 N) as R1.
  destruct (inside (at_ s1)) eqn:IN1; [|exists [l], ls, s1; cbn [run_labels app]; rewrite N; auto].
  assert (L1 : left (at_ s1) < length (filter is_run ls)).
  { pose proof (other_stays s l s1 IN) as X. destruct l as [f| | | |stp]; cbn [filter is_run length] in L2; try (rewrite X; [exact L2|discriminate|exact N]). destruct (run_left s s1 (reach_range s R) IN N) as (_ & [K|K] & _); [congruence|lia]. }
  destruct (IH s1 R1 E L1) as (ls1 & ls2 & s2 & -> & E2 & K). exists (l :: ls1), ls2, s2. cbn [run_labels app]. rewrite N. auto.
Qed.

(** *** Left alone, the reader gets everything *)
Definition runs (k : nat) (s : state) : res := run_labels sc c (repeat Run k) s.
Lemma run_labels_app l1 : forall s l2, run_labels sc c (l1 ++ l2) s = match run_labels sc c l1 s with Ok s1 => run_labels sc c l2 s1 | r => r end.
Proof. induction l1 as [|l l1 IH]; intros s l2; [reflexivity|]. cbn [app run_labels]. destruct (next s l); auto. Qed.
Lemma runs_add a b s s1 : runs a s = Ok s1 -> runs (a + b) s = runs b s1.
Proof. unfold runs. intro E. now rewrite repeat_app, run_labels_app, E. Qed.
Lemma runs_reach k s s' : reach s -> runs k s = Ok s' -> reach s'.
Proof. revert s. induction k as [|k IH]; intros s R E; [injection E as <-; exact R|]. unfold runs in E. cbn [repeat run_labels] in E. destruct (next s Run) as [| |s1] eqn:N; try discriminate. apply (IH s1); [|exact E]. apply (reach_next sc c s Run); auto. exact Logic.I. Qed.
Lemma run_out s : reach s -> exists k s', runs k s = Ok s' /\ inside (at_ s') = false /\ taken s' = taken s /\ (cq s = [] -> cq s' = []).
Proof.
  remember (left (at_ s)) as n eqn:En. revert s En. induction n as [n IH] using lt_wf_ind. intros s En R. destruct (inside (at_ s)) eqn:IN; [|exists 0, s; repeat split; auto].
  destruct (next s Run) as [| |s1] eqn:N.
  - apply C59_progress in N; [|exact R]. destruct N as [(N & _)|(N & _)]; rewrite N in IN; discriminate.
  - exfalso. exact (C59_no_fault s Run R Logic.I N).
  - pose proof (reach_next sc c s Run s1 R Logic.I N) as R1. destruct (run_left s s1 (reach_range s R) IN N) as (_ & D & T & Q & _). destruct D as [D|D].
    + exists 1, s1. unfold runs. cbn [repeat run_labels]. rewrite N. auto.
    + destruct (IH (left (at_ s1)) ltac:(lia) s1 eq_refl R1) as (k & s' & E & I' & T' & Q'). exists (S k), s'. unfold runs. cbn [repeat run_labels]. rewrite N. split; [exact E|]. split; [exact I'|]. split; [congruence|]. auto.
Qed.
Lemma out_empty s : reach s -> inside (at_ s) = false -> cq s = [] -> st_stopped (str s) = true \/ taken s = all_frames (log s).
Proof.
  intros R IN Q. pose proof (reach_inv sc c Cf s R) as I. destruct I as [_ _ (lost & T & TL) _ _ _ _ IG IO _]. destruct (at_ s) eqn:P; try discriminate.
  - right. unfold pending in T. rewrite P, (TL eq_refl), (IO eq_refl), Q in T. cbn in T. now rewrite app_nil_r in T.
  - right. unfold pending in T. rewrite P, (TL eq_refl), (IO eq_refl), Q in T. cbn in T. now rewrite app_nil_r in T.
  - left. now apply IG.
Qed.
(** No frame is stuck: if only the reader runs, then the stream stops or, after finitely
    many steps, all that the card has received has been given to it. *)
Theorem C59_drain s : 1 <= max_poll c -> reach s -> exists k s', runs k s = Ok s' /\ taken s' = taken s /\ (st_stopped (str s') = true \/ taken s = all_frames (log s')).
Proof.
  intros M R. destruct (run_out s R) as (k1 & s1 & E1 & I1 & T1 & _). pose proof (runs_reach k1 s s1 R E1) as R1. destruct (st_stopped (str s1)) eqn:St; [exists k1, s1; auto|].
  destruct (cq s1) as [|w q] eqn:Q.
  { exists k1, s1. split; [exact E1|]. split; [exact T1|]. destruct (out_empty s1 R1 I1 Q) as [K|K]; [auto|right; congruence]. }
  assert (E2 : exists s2, next s1 Run = Ok s2 /\ at_ s2 = Iter 0 true /\ cq s2 = cq s1 /\ taken s2 = taken s1).
  { cbn [IbvRecvModel.next]. destruct (at_ s1) eqn:P; try discriminate.
    - destruct (C59_wakeup s1 R1 P) as (_ & W). rewrite W by (rewrite Q; discriminate). eexists. split; [reflexivity|]. unfold enter. rewrite St. auto.
    - eexists. split; [reflexivity|]. unfold enter. rewrite St. auto.
    - exfalso. pose proof (i_gone _ _ _ (reach_inv sc c Cf s1 R1)) as G. rewrite P in G. specialize (G eq_refl). congruence. }
  destruct E2 as (s2 & E2 & P2 & Q2 & T2). pose proof (reach_next sc c s1 Run s2 R1 Logic.I E2) as R2.
  assert (E3 : exists s3 need, next s2 Run = Ok s3 /\ at_ s3 = Poll 0 need /\ cq s3 = cq s2 /\ taken s3 = taken s2).
  { cbn [IbvRecvModel.next]. rewrite P2. unfold do_iter. destruct (Nat.ltb_spec 0 (max_poll c)); [|lia]. destruct (channel c && _); eexists; eexists; (split; [reflexivity|]); repeat split. }
  destruct E3 as (s3 & need & E3 & P3 & Q3 & T3). pose proof (reach_next sc c s2 Run s3 R2 Logic.I E3) as R3.
  assert (E4 : exists s4, next s3 Run = Ok s4) by (cbn [IbvRecvModel.next]; rewrite P3; eauto). destruct E4 as (s4 & E4). pose proof (reach_next sc c s3 Run s4 R3 Logic.I E4) as R4.
  assert (IN3 : inside (at_ s3) = true) by now rewrite P3. destruct (run_left s3 s4 (reach_range s3 R3) IN3 E4) as (_ & _ & T4 & _ & Q4).
  pose proof (slots_nodup sc c s3 (reach_inv sc c Cf s3 R3)) as (_ & _ & LN). unfold pending in LN. rewrite app_length in LN. specialize (Q4 0 need P3 ltac:(lia)).
  destruct (run_out s4 R4) as (k5 & s5 & E5 & I5 & T5 & Q5). pose proof (runs_reach k5 s4 s5 R4 E5) as R5. exists (k1 + (3 + k5)), s5. split.
  { rewrite (runs_add k1 _ s s1 E1). rewrite (runs_add 3 _ s1 s4); [exact E5|]. unfold runs. cbn [repeat run_labels]. now rewrite E2, E3, E4. }
  split; [congruence|]. destruct (out_empty s5 R5 I5 (Q5 Q4)) as [K|K]; [auto|right; congruence].
Qed.
End Receiver.

(** ** End to end *)
Lemma frame_ds_unique f ds : bytes_ok f -> frame_ds f ds -> ds = parsed Ethernet (Frame f (zlen f)).
Proof.
  intros B H. cbn [parsed]. rewrite Z.ltb_irrefl, slice_all. destruct (C39_parse Ethernet f B) as (NF & P). destruct H as [(d & (_ & off & n & H & ->) & ->)|(H & ->)].
  - rewrite slice_all in *. apply P in H. now rewrite H.
  - destruct (udp_from Ethernet f) as [|e|[off n]] eqn:E; try reflexivity. exfalso. apply (H (slice f off n)). split; [lia|]. exists off, n. rewrite slice_all. split; [now apply P|reflexivity].
Qed.
Section EndToEnd.
Context (sc : sconfig) (c : config) (hab : Z) (items : list item) (rep : bool) (cnt mps : Z) (g : gen_cfg) (pks : list packet).
Context (Cf : config_ok sc) (Hooo : sc_allow_ooo sc = true) (Hstop : sc_stop_item sc = false).
Context (HA : accepted hab items rep cnt mps g) (HPk : packets_of g pks) (Hcf : count_fits g) (Hni : no_interleave g) (Hcnt : (0 <= cnt < 2 ^ hab)%Z) (HL : (g_psize g < 2 ^ hab)%Z).
Context (Hit : Forall (fun it => (4 < item_id it)%Z /\ (addressed hab it = true -> item_data it <> [])) items).
Definition untouched (s : state) : Prop := forall stp, ~ In (ByUser stp) (log s).
(** The card has received frames with all packets of a heap, among others, and the user has
    not touched the stream: then, if the reader goes on, the heap is received. *)
Theorem C59_end_to_end s dss : 1 <= max_poll c -> reach sc c s -> untouched s -> Forall2 frame_ds (taken s) dss -> (mps <= max_size c)%Z -> all_there cnt pks (concat dss) ->
  exists k s', runs sc c k s = Ok s' /\ (room sc cnt (str s') -> received hab items cnt (str s')).
Proof.
  intros M R U F Hm HT. destruct (C59_drain sc c Cf s M R) as (k & s' & E & T & D). pose proof (runs_reach sc c k s s' R E) as R'. exists k, s'. split; [exact E|]. intro HR.
  assert (U' : untouched s').
  { revert R U E. clear. unfold runs. revert s. induction k as [|k IH]; intros s R U E; [injection E as <-; exact U|]. cbn [repeat run_labels] in E. destruct (next sc c s Run) as [| |s1] eqn:N; try discriminate. apply (IH s1); [apply (reach_next sc c s Run); auto; exact Logic.I| |exact E].
    assert (LV : forall need x y, leave sc c need x = Ok y -> log x = log s -> untouched y).
    { intros need x y L X stp K. unfold leave in L. destruct (batch_end _ _ _); [|discriminate]. injection L as <-. cbn [log] in K. apply in_app_or in K as [K|[K|[]]]; [rewrite X in K; exact (U stp K)|discriminate]. }
    cbn [next] in N. destruct (at_ s) as [| |i need|i need|i need wcs chain|]; try discriminate.
    - destruct (event s); [|discriminate]. injection N as <-. unfold enter. destruct (st_stopped _); exact U.
    - injection N as <-. unfold enter. destruct (st_stopped _); exact U.
    - unfold do_iter in N. destruct (_ <? _); [destruct (channel c && _); injection N as <-; exact U|]. now apply (LV need s).
    - injection N as <-. exact U.
    - assert (LK : forall k0 wcs0 x, link_slot c i need k0 wcs0 chain x = Ok s1 -> log x = log s -> untouched s1).
      { intros k0 wcs0 x K X stp. unfold link_slot in K. destruct (_ =? _); [|injection K as <-; cbn [set_pc log]; rewrite X; apply U]. unfold post in K. destruct (_ <=? _); [|discriminate]. injection K as <-. cbn [set_pc log]. rewrite X. apply U. }
      unfold do_proc in N. destruct wcs as [|w wcs].
      + destruct chain; [injection N as <-; exact U|]. unfold post in N. destruct (_ <=? _); [|discriminate]. injection N as <-. exact U.
      + destruct (c_ok w); [|now apply (LK _ _ _ N)]. destruct (nth_error _ _); [|discriminate]. destruct (existsb _ _); [discriminate|]. destruct (do_frame _ _ _ _) as [[x [|]]|]; try discriminate; [now apply (LV _ _ _ N)|now apply (LK _ _ _ N)]. }
  destruct (C59_stream sc c Cf s' R') as (ops & Mo & Do & Ro).
  assert (PB : Forall bytes_ok (taken s')) by apply (i_bytes _ _ _ (reach_inv sc c Cf s' R')).
  assert (OB : Forall is_batch ops /\ flat_map op_pkts ops = flat_map (pk c) (all_frames (log s')) /\ forall o, In o ops -> o = Flush \/ exists l, o = Batch l false).
  { assert (BA : Forall bytes_ok (all_frames (log s'))). { destruct (C59_order sc c Cf s' R') as (rest & TT & _). rewrite TT in PB. apply Forall_app in PB. tauto. }
    revert U' BA Mo. clear. unfold untouched. generalize (log s'). intros l U' BA Mo. induction Mo as [|d o l ops X Mo IH]; [split; [constructor|]; split; [reflexivity|intros ? []]|]. cbn [all_frames flat_map] in BA. apply Forall_app in BA as (B1 & B2). destruct IH as (I1 & I2 & I3); [intros stp K; apply (U' stp); now right|exact B2|].
    destruct X as [fs ds Fd Bd|stp]; [|exfalso; apply (U' stp); now left]. split; [constructor; [exact Logic.I|exact I1]|]. split.
    - cbn [all_frames flat_map op_pkts frames_of]. rewrite flat_map_app. f_equal; [|exact I2]. rewrite pk_concat. do 2 f_equal. clear - Fd B1. cbn [frames_of] in B1. induction Fd as [|f d fs ds H _ IH]; [reflexivity|]. inversion B1; subst. cbn [map]. rewrite <- IH by assumption. f_equal. now apply frame_ds_unique.
    - intros o [<-|Ho]; [right; eauto|auto]. }
  destruct OB as (O1 & O2 & O3).
  assert (NS : st_stopped (str s') = false) by (eapply InprocProps.only_batches; [exact Hstop|exact Cf|exact Do|exact O3|exact Ro]).
  destruct D as [D|D]; [congruence|].
  apply (batches_receive sc hab items rep cnt mps g pks Cf Hooo Hstop HA HPk Hcf Hni Hcnt HL Hit (fun _ => max_size c) (concat dss) ops (str s') (rs s')); trivial.
  - rewrite O2, <- D, pk_concat. f_equal. f_equal. rewrite T in PB. clear - F PB. induction F as [|f d fs ds H _ IH]; [reflexivity|]. inversion PB; subst. cbn [map]. rewrite IH by assumption. f_equal. symmetry. now apply frame_ds_unique.
  - intros p Hp. destruct (C04_packets_fit_and_carry_payload _ _ _ _ _ _ HA) as (pks' & P' & K4 & _). rewrite (packets_of_unique _ _ _ P' HPk) in K4. rewrite Forall_forall in K4. destruct (K4 p Hp) as (? & ? & ? & ? & K5). cbv beta. lia.
Qed.
End EndToEnd.

(** The frames that the ibverbs sender makes (C55) are such frames. *)
Theorem C59_from_sender i pay f mem at_ p hab items rep cnt g pks pk : IbvFrameSpec.cfg_ok i -> (IbvFrameModel.ic_mps i <= 65507)%Z -> IbvFrameSpec.reached i pay f -> (forall a, byte_ok (mem a)) ->
  accepted hab items rep cnt (IbvFrameModel.ic_mps i) g -> packets_of g pks -> In pk pks ->
  IbvFrameModel.ip_words p = flat_map (be_encode 8) (pk_words pk) -> IbvFrameModel.ip_len0 p = pk_len0 pk ->
  Forall2 (fun b l => snd b = zlen l /\ IbvFrameModel.load mem (fst b) (snd b) = l) (IbvFrameModel.ip_bufs p) (pk_bufs pk) -> (IbvFrameModel.ip_sub p < length (IbvFrameModel.ic_eps i)) ->
  exists f' l, IbvFrameModel.put_packet i mem at_ pay f p = POk (f', l) /\ (bytes_ok (IbvFrameModel.wire i mem at_ f' l) -> frame_ds (IbvFrameModel.wire i mem at_ f' l) [packet_bytes pk]).
Proof.
  intros CO HM R MO AC PO IN E1 E2 E3 E4. destruct (IbvFrameProps.C55_generated i pay f mem at_ p hab items rep cnt g pks pk CO HM R MO AC PO IN E1 E2 E3 E4) as (f' & l & P & U & S). exists f', l. split; [exact P|]. intro B. set (w := IbvFrameModel.wire i mem at_ f' l) in *.
  left. exists (packet_bytes pk). split; [|reflexivity]. split; [lia|]. exists 42%Z, (zlen (packet_bytes pk)). rewrite slice_all. split; [|now symmetry]. apply (proj2 (C39_parse Ethernet w B)). exact U.
Qed.

(** *** Example *)
(** Two slots.  While the reader waits, the second packet of heap 9 arrives; during the
    handler a frame that is not UDP, and after notification was asked for the first
    packet, after which the card has no slot.  Then a request fails.  The heap is received. *)
Definition ex_c : config := {| n_slots := 2; raw_size := 114; max_size := 72; max_poll := 2; channel := true |}.
Definition ex_labels : list label := Eval vm_compute in
  [Run; Run; Run; Run; Run; Run; Run; Run] ++ [CardRecv (ex_frame ex_p1); Run; Run; Run; CardRecv [1; 2; 3]%Z; Run; Run; Run; CardRecv (ex_frame ex_p0)].
Definition ex_s : state := Eval vm_compute in match run_labels ex_sc3 ex_c ex_labels (init ex_sc3 ex_c) with Ok s => s | _ => init ex_sc3 ex_c end.
Definition ex_end : state := Eval vm_compute in match run_labels ex_sc3 ex_c (repeat Run 3 ++ CardErr :: repeat Run 11) ex_s with Ok s => s | _ => ex_s end.

Lemma labels_reach sc c ls s s' : reach sc c s -> Forall sane ls -> run_labels sc c ls s = Ok s' -> reach sc c s'.
Proof. intros R Sa. revert s R. induction Sa as [|l ls S1 _ IH]; intros s R E; [injection E as <-; exact R|]. cbn [run_labels] in E. destruct (next sc c s l) as [| |s1] eqn:N; try discriminate. apply (IH s1); [exact (reach_next sc c s l s1 R S1 N)|exact E]. Qed.
Example C59_ex : reach ex_sc3 ex_c ex_s /\ untouched ex_s /\ Forall2 frame_ds (taken ex_s) [[ex_p1]; []; [ex_p0]] /\ cq ex_s = [{| c_slot := 1; c_ok := true; c_len := 3 |}; {| c_slot := 0; c_ok := true; c_len := 114 |}] /\ rq ex_s = [] /\ event ex_s = true /\
  reach ex_sc3 ex_c ex_end /\ at_ ex_end = Waiting /\ armed ex_end = true /\ rq ex_end = [0; 1] /\ log ex_end = [Handled []; Handled (taken ex_s); Handled []] /\ rs ex_end = [true; true] /\
  map (fun o => (oh_why o, lh_cnt (oh_heap o))) (st_out (str ex_end)) = [(Complete, 9%Z)].
Proof.
  assert (S1 : Forall sane ex_labels) by (unfold ex_labels; repeat (constructor; [first [exact Logic.I|apply bytes_by; vm_compute; reflexivity]|]); constructor).
  assert (R1 : reach ex_sc3 ex_c ex_s) by (apply (labels_reach _ _ ex_labels (init ex_sc3 ex_c)); [constructor|exact S1|vm_compute; reflexivity]). split; [exact R1|].
  split; [intros stp; vm_compute; intros [K|[]]; discriminate|]. split.
  { replace [[ex_p1]; []; [ex_p0]] with (map (fun f => parsed Ethernet (Frame f (zlen f))) (taken ex_s)) by (vm_compute; reflexivity).
    assert (B : Forall bytes_ok (taken ex_s)) by (unfold ex_s; cbn [taken]; repeat (constructor; [apply bytes_by; vm_compute; reflexivity|]); constructor). revert B. generalize (taken ex_s). intros l B. induction B as [|f l Bf _ IH]; [constructor|]. constructor; [now apply entry_parse|exact IH]. }
  split; [reflexivity|]. split; [reflexivity|]. split; [reflexivity|]. split; [|repeat split].
  apply (labels_reach _ _ (repeat Run 3 ++ CardErr :: repeat Run 11) ex_s); [exact R1| |vm_compute; reflexivity]. cbn [repeat app]. repeat (constructor; [exact Logic.I|]). constructor.
Qed.
Example C59_there_ex : exists g, accepted 48 ex_items false 9 72 g /\ packets_of g (run_pkts 48 ex_items 72) /\ all_there 9 (run_pkts 48 ex_items 72) (concat [[ex_p1]; []; [ex_p0]]) /\ room ex_sc3 9 (str ex_end).
Proof. destruct C58_there_ex as (g & A & P & _ & _ & T & _). exists g. split; [exact A|]. split; [exact P|]. split; [exact T|]. vm_compute. auto. Qed.

Print Assumptions C59_no_fault.
Print Assumptions C59_stream.
Print Assumptions C59_order.
Print Assumptions C59_slots.
Print Assumptions C59_wakeup.
Print Assumptions C59_progress.
Print Assumptions C59_handler_ends.
Print Assumptions C59_drain.
Print Assumptions C59_end_to_end.
Print Assumptions C59_from_sender.
