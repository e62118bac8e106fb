(** C60: the multi-packet ibverbs receiver gives the stream all frames that the card has
    received, once and in order, and does not miss any of them - if start is done before
    the first buffer is used up. *)
From Coq Require Import ZArith List Bool Arith Lia.
From Verif Require InprocProofs InprocProps IbvRecvProofs IbvRecvProps.
From Verif Require Import Base ConcBase CodecModel PacketSpec RecvPacketModel RecvPacketProofs RecvPacketProps SendPacketModel SendSpec SendPacketProofs SendGenProofs SendProps
  LiveHeapModel LiveHeapSpec LiveHeapProofs LiveHeapProps RecvHeapModel RecvHeapProofs RecvHeapProps ReassembleProofs E2EProofs E2EProps
  StreamModel StreamSpec StreamProofs StreamInvProofs StreamRunProofs StreamProps StreamE2EProofs StreamE2EProps RawModel RawSpec RawProps ReadersModel ReadersSpec ReadersProofs ReadersProps
  IbvRecvModel IbvRecvSpec MprqModel MprqSpec MprqProofs.
Import ListNotations.
Open Scope Z_scope.

(** The constructor makes sizes for which the rest holds, on any card that allows strides of
    64 bytes to 256 KB and 2^14 strides in a buffer, and that has 16-bit queues;
    and the buffer is as large as asked for, up to part of an entry, if the card allows it. *)
Record card_ok (k : caps) : Prop := {
  ca_ls : 0 <= min_ls k <= max_ls k /\ min_ls k <= 18 /\ 6 <= max_ls k;
  ca_ln : 0 <= min_ln k <= max_ln k /\ min_ln k <= 14;
  ca_wr : max_qp_wr k < 65536
}.
Theorem C60_config k buffer ls ln n strides e max poll channel erly : card_ok k -> 0 <= buffer -> sizes k buffer = Some (ls, ln, n, strides) -> 0 <= e <= 31 -> n <= 2 ^ e ->
  mcfg_ok {| wqe := n; wqe_cnt := 2 ^ e; n_strides := 2 ^ ln; stride := 2 ^ ls; cqe := strides; m_max := max; m_poll := poll; m_channel := channel; early := erly |} /\ 2 <= n /\
  (buffer / 2 ^ ls <= max_cqe k -> 2 * 2 ^ ln <= max_cqe k -> n < max_qp_wr k -> buffer < (n + 1) * 2 ^ (ls + ln)).
Proof.
  intros [(A1 & A2 & A3) (B1 & B2) C1] HB E He Hn. unfold sizes in E. set (ls0 := clamp 6 (min_ls k) (max_ls k)) in *. assert (L1 : 6 <= ls0 <= 18) by (unfold ls0, clamp; destruct (Z.ltb_spec 6 (min_ls k)), (Z.ltb_spec (max_ls k) 6); lia).
  rewrite (Z.mod_small (20 - ls0)) in E by lia. set (ln0 := clamp (20 - ls0) (min_ln k) (max_ln k)) in *. assert (L2 : 0 <= ln0 <= 14) by (unfold ln0, clamp; destruct (Z.ltb_spec (20 - ls0) (min_ln k)), (Z.ltb_spec (max_ln k) (20 - ls0)); lia).
  clearbody ls0 ln0. set (b := if buffer <? _ then _ else _) in E. set (st0 := if max_cqe k <? _ then _ else _) in E. set (n0 := if max_qp_wr k <? _ then _ else _) in E. destruct (Z.ltb_spec n0 2) as [?|N2]; [discriminate|]. injection E as <- <- <- <-.
  pose proof (Z.pow_pos_nonneg 2 ls0 ltac:(lia) ltac:(lia)) as P1. pose proof (Z.pow_pos_nonneg 2 ln0 ltac:(lia) ltac:(lia)) as P2. assert (N0 : n0 <= st0 / 2 ^ ln0 /\ n0 <= max_qp_wr k) by (unfold n0; destruct (Z.ltb_spec (max_qp_wr k) (st0 / 2 ^ ln0)); lia). destruct N0 as (N0a & N0b).
  split; [constructor; cbn [wqe wqe_cnt n_strides stride cqe]|split; [exact N2|]].
  - lia.
  - eauto.
  - exact Hn.
  - split; [lia|]. change 32768 with (2 ^ 15). apply Z.pow_lt_mono_r; lia.
  - lia.
  - unfold wqe_size. cbn [n_strides stride]. rewrite <- Z.pow_add_r by lia. apply Z.pow_le_mono_r; lia.
  - pose proof (Z.mul_div_le st0 (2 ^ ln0) P2). pose proof (Z.mul_le_mono_nonneg_r n0 (st0 / 2 ^ ln0) (2 ^ ln0) ltac:(lia) N0a). lia.
  - intros M1 M2 M3. assert (PA : 2 ^ (ls0 + ln0) = 2 ^ ls0 * 2 ^ ln0) by (apply Z.pow_add_r; lia). assert (BS : b / 2 ^ ls0 <= max_cqe k).
    { unfold b. destruct (Z.ltb_spec buffer (2 * 2 ^ (ls0 + ln0))); [|exact M1]. rewrite PA. replace (2 * (2 ^ ls0 * 2 ^ ln0)) with (2 * 2 ^ ln0 * 2 ^ ls0) by lia. rewrite Z.div_mul by lia. exact M2. }
    assert (S0 : st0 = b / 2 ^ ls0) by (unfold st0; destruct (Z.ltb_spec (max_cqe k) (b / 2 ^ ls0)); lia). assert (NE : n0 = b / 2 ^ (ls0 + ln0)). { unfold n0 in *. destruct (Z.ltb_spec (max_qp_wr k) (st0 / 2 ^ ln0)); [lia|]. rewrite S0, PA. apply Z.div_div; lia. }
    assert (BB : buffer <= b) by (unfold b; destruct (Z.ltb_spec buffer (2 * 2 ^ (ls0 + ln0))); lia). pose proof (Z.mul_succ_div_gt b (2 ^ (ls0 + ln0)) ltac:(apply Z.pow_pos_nonneg; lia)). rewrite NE. lia.
Qed.
Example C60_config_ex : card_ok {| min_ls := 6; max_ls := 13; min_ln := 3; max_ln := 16; max_cqe := 4194303; max_qp_wr := 32768 |} /\ sizes {| min_ls := 6; max_ls := 13; min_ln := 3; max_ln := 16; max_cqe := 4194303; max_qp_wr := 32768 |} (16 * 2 ^ 20) = Some (6, 14, 16, 2 ^ 18).
Proof. split; [constructor; cbn; lia|vm_compute; reflexivity]. Qed.

(** A completion that stands for a frame *)
Definition is_frame (w : comp) : bool := c_ok w && (c_cnt w / 65536 <? 32768).
Lemma pend_frames c m C dd : mcfg_ok c -> forall l q fs, pend c m C dd q l fs -> length fs = length (filter is_frame l).
Proof.
  intro Mo. induction l as [|w l IH]; intros q fs H; cbn [pend] in H; [destruct H as (-> & _); reflexivity|]. cbn [filter]. unfold is_frame at 1. destruct (c_ok w).
  - destruct H as (n & len & fl & E & HL & Hn & HQ & H). pose proof (mo_strides c Mo). pose proof (Z.mod_pos_bound q (n_strides c) ltac:(lia)). pose proof (decode_cnt c Mo fl n len ltac:(lia) HL) as (_ & D & _). rewrite <- E in D. cbn [andb]. destruct fl.
    + apply Z.leb_le in D. destruct (Z.ltb_spec (c_cnt w / 65536) 32768); [lia|]. exact (IH _ _ H).
    + apply Z.leb_gt in D. destruct (Z.ltb_spec (c_cnt w / 65536) 32768); [|lia]. destruct H as (_ & fs' & -> & H). cbn [length]. f_equal. exact (IH _ _ H).
  - destruct H as (_ & F & -> & _). cbn [andb]. clear - F. induction F as [|w l E _ IH]; [reflexivity|]. cbn [filter]. unfold is_frame at 1. rewrite E. exact IH.
Qed.

Open Scope nat_scope.
(** In what follows [early c = false]: executions in which a buffer is used up before start is
    done are left out, since the claims do not hold for them (C60_start_refuted, below). *)
Section Receiver.
Context (sc : sconfig) (c : mconfig) (Cf : config_ok sc) (Mo : mcfg_ok c) (Ea : early c = false).
Notation next := (next sc c).
Notation reach := (reach sc c).

(** Nothing is undefined: no byte is read that the card may still write, neither queue
    overflows, nothing is out of range, the assertion on the number of strides holds. *)
Theorem C60_no_fault_partial s l : reach s -> sane l -> next s l <> Fault.
Proof. intros R Sa. destruct (next_ok sc c Cf Mo Ea s l (reach_inv sc c Cf Mo Ea s R) Sa) as [E|(s' & E & _)]; rewrite E; discriminate. Qed.

(** The stream is as if it were given the packets of the frames directly. *)
Theorem C60_stream_partial s : reach s -> exists ops, Forall2 (means (m_max c)) (log s) ops /\ Forall op_decoded ops /\ run sc (stream_new sc) ops = Some (str s, rs s).
Proof. intro R. apply (reach_inv sc c Cf Mo Ea s R). Qed.

(** The frames dealt with are those that the card received, once and in order; what is
    missing is in the completion queue. *)
Theorem C60_order_partial s : reach s -> exists rest, taken s = all_frames (log s) ++ cur s ++ rest /\ length rest = length (filter is_frame (cq s)) /\ (at_ s = Waiting \/ at_ s = Queued -> cur s = []).
Proof.
  intro R. destruct (reach_inv sc c Cf Mo Ea s R) as [(p & t & r & fs & G) _ _ _ _ _ IO _]. exists fs. split; [apply (g_taken _ _ _ _ _ _ G)|]. split; [exact (pend_frames c _ _ _ Mo _ _ _ (g_pend _ _ _ _ _ _ G))|]. intros [K|K]; rewrite K in IO; auto.
Qed.

(** Between handlers all buffers are with the card, but those that start has not posted yet. *)
Theorem C60_buffers_partial s : reach s -> at_ s = Waiting \/ at_ s = Queued -> ((head s - tail s) mod 2 ^ 32 = wqe c - Z.of_nat (todo s))%Z /\ held s = 0%Z.
Proof.
  intros R K. destruct (reach_inv sc c Cf Mo Ea s R) as [(p & t & r & fs & G) _ _ _ _ _ _ _]. pose proof (g_pc _ _ _ _ _ _ G) as GP. pose proof (g_rel _ _ _ _ _ _ G) as GR. destruct (g_posted _ _ _ _ _ _ G) as (P1 & P2). pose proof (mo_wqe c Mo).
  split; [|apply GR; destruct K as [-> | ->]; reflexivity]. assert (t = r) by (destruct K as [K|K]; rewrite K in GP; exact GP). rewrite (g_head _ _ _ _ _ _ G), (g_tail _ _ _ _ _ _ G), <- Zminus_mod. subst r. replace (p - t)%Z with (wqe c - Z.of_nat (todo s))%Z by lia. apply Z.mod_small. lia.
Qed.

(** While the reader waits for an event, one is there or has been asked for; and one is
    there if there are completions. *)
Theorem C60_wakeup_partial s : reach s -> at_ s = Waiting -> armed s || event s = true /\ (cq s <> [] -> event s = true).
Proof. intros R K. destruct (reach_inv sc c Cf Mo Ea s R) as [_ _ IE IP _ _ _ _]. rewrite K in *. auto. Qed.

(** ** Termination of handlers *)
(** Steps that a handler may still take *)
Definition round : nat := 3 * max_iter + 5.
Definition left (p : pc) : nat :=
  match p with
  | Iter i _ => (m_poll c - i) * round + 1
  | Poll i _ it => (m_poll c - S i) * round + 3 * (max_iter - it) + 3
  | Last i _ it => (m_poll c - S i) * round + 3 * (max_iter - S it) + 5
  | Repost i _ it => (m_poll c - S i) * round + 3 * (max_iter - S it) + 4
  | _ => 0
  end.
Definition in_range (p : pc) : Prop := match p with Poll i _ _ => i < m_poll c | Last i _ it | Repost i _ it => i < m_poll c /\ it < max_iter | _ => True end.
Lemma leave_out need s s' : leave sc c need s = Ok s' -> inside (at_ s') = false /\ cq s' = cq s /\ taken s' = taken s /\ todo s' = todo s.
Proof. unfold leave. destruct (batch_end _ _ _); [|discriminate]. intro E. injection E as <-. cbn [at_ cq taken todo]. split; [|auto]. now destruct (is_stopped _), (m_channel c), need. Qed.
Lemma completion_out i need it b q s s' : do_completion sc c i need it b q s = Ok s' -> (inside (at_ s') = false \/ at_ s' = Poll i need (S it) \/ at_ s' = Last i need it) /\ cq s' = q /\ taken s' = taken s /\ todo s' = todo s.
Proof.
  unfold do_completion. destruct (_ <? _)%Z; [discriminate|]. destruct (_ && _ && _); [discriminate|]. set (lst := (n_strides c <=? _)%Z). destruct (32768 <=? _)%Z.
  - intro E. injection E as <-. cbn [upd_reader at_ cq taken todo]. destruct lst; auto.
  - destruct (may_read _ _ _ _); [|discriminate]. destruct (do_frame _ _ _ _) as [[x [|]]|]; [| |discriminate].
    + intro E. apply leave_out in E as (E & E1 & E2). auto.
    + intro E. injection E as <-. cbn [upd_reader at_ cq taken todo]. destruct lst; auto.
Qed.
Lemma run_left s s' : in_range (at_ s) -> inside (at_ s) = true -> next s Run = Ok s' ->
  in_range (at_ s') /\ (inside (at_ s') = false \/ left (at_ s') < left (at_ s)) /\ taken s' = taken s /\ todo s' = todo s /\ length (cq s') <= length (cq s) /\ (forall i need it, at_ s = Poll i need it -> it < max_iter -> cq s <> [] -> length (cq s') < length (cq s)).
Proof.
  intros IR I E. cbn [MprqModel.next] in E. destruct (at_ s) as [| |i need|i need it|i need it|i need it|] eqn:P; try discriminate; cbn [in_range] in IR.
  - unfold do_iter in E. destruct (Nat.ltb_spec i (m_poll c)) as [L|L].
    + assert (X : at_ s' = Poll i need 0 \/ at_ s' = Poll i false 0) by (destruct (m_channel c && _); injection E as <-; auto). assert (Y : cq s' = cq s /\ taken s' = taken s /\ todo s' = todo s) by (destruct (m_channel c && _); injection E as <-; auto). destruct Y as (Y1 & Y2 & Y3). rewrite Y1.
      split; [destruct X as [-> | ->]; exact L|]. split; [|split; [exact Y2|split; [exact Y3|split; [lia|discriminate]]]]. right. replace (m_poll c - i) with (S (m_poll c - S i)) by lia. destruct X as [-> | ->]; cbn [left Nat.mul]; replace (m_poll c - i) with (S (m_poll c - S i)) by lia; cbn [Nat.mul]; unfold round; lia.
    + apply leave_out in E as (E1 & E2 & E3 & E4). rewrite E2. split; [now destruct (at_ s')|]. repeat split; auto. discriminate.
  - unfold do_poll in E. destruct (Nat.leb_spec max_iter it) as [L|L].
    + injection E as <-. cbn [release upd_reader at_ cq taken todo in_range inside left]. split; [exact Logic.I|]. split; [right; lia|]. repeat split; auto. intros ? ? ? K. injection K as <- <- <-. lia.
    + destruct (cq s) as [|w q] eqn:Q.
      * injection E as <-. cbn [release upd_reader at_ cq taken todo in_range inside left]. rewrite Q. split; [exact Logic.I|]. split; [right; lia|]. repeat split; auto. congruence.
      * assert (X : (inside (at_ s') = false \/ at_ s' = Poll i need (S it) \/ at_ s' = Last i need it) /\ cq s' = q /\ taken s' = taken s /\ todo s' = todo s).
        { destruct (c_ok w); [now apply completion_out in E|]. injection E as <-. cbn [upd_reader at_ cq taken todo]. auto. }
        destruct X as (X1 & -> & X3 & X4). cbn [length]. split; [destruct X1 as [X1|[-> | ->]]; [now destruct (at_ s')|exact IR|split; [exact IR|exact L]]|]. split; [|repeat split; auto; intros; lia].
        destruct X1 as [X1|[-> | ->]]; [now left|right; cbn [left]; lia|right; cbn [left]; lia].
  - injection E as <-. cbn [release upd_reader at_ cq taken todo in_range inside left]. split; [exact IR|]. split; [right; lia|]. repeat split; auto. discriminate.
  - unfold do_repost, post_recv in E. destruct (_ <=? _)%Z; [discriminate|]. injection E as <-. cbn [at_ cq taken todo in_range inside left]. split; [apply IR|]. split; [right; lia|]. repeat split; auto. discriminate.
Qed.
Lemma complete_same ok cnt n f dd s s' : complete c ok cnt n f dd s = Ok s' -> at_ s' = at_ s.
Proof. unfold complete. destruct (_ <? _)%Z; [|discriminate]. intro E. now injection E as <-. Qed.
(** Inside a handler only [Run] changes where it is; the card and start never do. *)
Lemma other_stays s l s' : inside (at_ s) = true \/ match l with Run | Abort => False | _ => True end -> l <> Run -> next s l = Ok s' -> at_ s' = at_ s.
Proof.
  intros IN N E. destruct l as [|f n|n len| | | |stp]; cbn [MprqModel.next] in E; [| | | |congruence| |].
  - unfold do_start in E. destruct (todo s); [discriminate|]. unfold post_recv in E. destruct (_ <=? _)%Z; [discriminate|]. now injection E as <-.
  - destruct (_ && _); [|discriminate]. now apply complete_same in E.
  - destruct (_ && _); [|discriminate]. now apply complete_same in E.
  - destruct (_ <? _)%Z; [|discriminate]. now apply complete_same in E.
  - destruct IN as [IN|[]]. destruct (at_ s); discriminate.
  - assert (X : forall y, step_user sc stp s = Ok y -> at_ y = at_ s). { intros y K. unfold step_user in K. destruct (step sc (str s) _) as [[? ?]|]; [|discriminate]. now injection K as <-. } destruct (at_ s) eqn:P; try discriminate; exact (X s' E).
Qed.
Lemma next_range s l s' : in_range (at_ s) -> next s l = Ok s' -> in_range (at_ s').
Proof.
  intros IR E. assert (ST : match l with Run | Abort => False | _ => True end -> at_ s' = at_ s) by (intro K; apply (other_stays s l s' (or_intror K)); [intros ->; exact K|exact E]).
  destruct l as [|f n|n len| | | |stp]; try (rewrite (ST Logic.I); exact IR).
  - destruct (inside (at_ s)) eqn:IN; [exact (proj1 (run_left s s' IR IN E))|]. cbn [MprqModel.next] in E. destruct (at_ s); try discriminate; [destruct (event s); [|discriminate]|]; injection E as <-; unfold enter; destruct (st_stopped _); exact Logic.I.
  - cbn [MprqModel.next] in E. destruct (at_ s); try discriminate. destruct (st_stopped _); [injection E as <-; exact Logic.I|]. apply leave_out in E as (E & _). now destruct (at_ s').
Qed.
Lemma reach_range s : reach s -> in_range (at_ s).
Proof. induction 1 as [|s l s' R IH Sa E]; [exact Logic.I|]. exact (next_range s l s' IH E). Qed.
Definition is_run (l : label) : bool := match l with Run => true | _ => false end.
(** Once start is done, the reader is only blocked while waiting for an event, or when the
    stream has stopped; and a handler ends after a bounded number of its steps, whatever
    the card does. *)
Theorem C60_progress_partial s : reach s -> todo s = 0 -> next s Run = Blocked -> (at_ s = Waiting /\ event s = false) \/ (at_ s = Gone /\ st_stopped (str s) = true).
Proof.
  intros R TD E. pose proof (reach_inv sc c Cf Mo Ea s R) as I. destruct (at_ s) as [| |i need|i need it|i need it|i need it|] eqn:P; cbn [MprqModel.next] in E; rewrite P in E; try discriminate.
  - destruct (event s) eqn:V; [discriminate|auto].
  - destruct (do_iter_ok sc c Cf s i need I P) as (s' & K & _). congruence.
  - exfalso. unfold do_poll in E. destruct (_ <=? _); [discriminate|]. destruct (cq s) as [|w q] eqn:Q; [discriminate|]. destruct (c_ok w) eqn:OK; [|discriminate]. unfold do_completion in E. destruct (_ <? _)%Z; [discriminate|]. rewrite TD in E. cbn [Nat.eqb negb] in E. rewrite andb_false_r in E.
    destruct (32768 <=? _)%Z; [discriminate|]. destruct (may_read _ _ _ _); [|discriminate]. destruct (do_frame _ _ _ _) as [[x [|]]|]; try discriminate. unfold leave in E. destruct (batch_end _ _ _); discriminate.
  - unfold do_repost, post_recv in E. destruct (_ <=? _)%Z; discriminate.
  - right. split; [reflexivity|]. apply (i_gone _ _ _ I). now rewrite P.
Qed.
Theorem C60_handler_ends_partial s ls s' : reach s -> Forall sane ls -> run_labels sc c ls s = Ok s' -> m_poll c * round + 1 < length (filter is_run ls) ->
  exists ls1 ls2 s1, ls = ls1 ++ ls2 /\ run_labels sc c ls1 s = Ok s1 /\ inside (at_ s1) = false.
Proof.
  intros R Sa E L. assert (LB : left (at_ s) <= m_poll c * round + 1).
  { pose proof (reach_range s R) as IR. assert (M : forall i, (m_poll c - i) * round <= m_poll c * round) by (intro; apply Nat.mul_le_mono_r; lia). assert (M2 : forall i, i < m_poll c -> S (m_poll c - S i) * round <= m_poll c * round) by (intros; apply Nat.mul_le_mono_r; lia). assert (RD : round = 3 * max_iter + 5) by reflexivity.
    destruct (at_ s) as [| |i need|i need it|i need it|i need it|]; cbn [left in_range] in *; try lia; try (specialize (M i); lia); (assert (Hi : i < m_poll c) by (apply IR || exact IR)); specialize (M2 i Hi); cbn [Nat.mul] in M2; lia. }
  assert (L2 : left (at_ s) < length (filter is_run ls)) by lia. clear L LB. revert s R E L2. induction Sa as [|l ls S1 Sa IH]; intros s R E L2; [cbn in L2; lia|].
  destruct (inside (at_ s)) eqn:IN; [|exists [], (l :: ls), s; auto]. cbn [run_labels] in E. destruct (next s l) as [| |s1] eqn:N; try discriminate. pose proof (reach_next sc c s l s1 R S1 N) as R1.
  destruct (inside (at_ s1)) eqn:IN1; [|exists [l], ls, s1; cbn [run_labels app]; rewrite N; auto].
  assert (L1 : left (at_ s1) < length (filter is_run ls)).
  { pose proof (other_stays s l s1 (or_introl IN)) as X. destruct l as [|f n|n len| | | |stp]; cbn [filter is_run length] in L2; try (rewrite X; [exact L2|discriminate|exact N]). destruct (run_left s s1 (reach_range s R) IN N) as (_ & [K|K] & _); [congruence|lia]. }
  destruct (IH s1 R1 E L1) as (ls1 & ls2 & s2 & -> & E2 & K). exists (l :: ls1), ls2, s2. cbn [run_labels app]. rewrite N. auto.
Qed.

(** *** Left alone, the reader gets everything *)
Definition runs (k : nat) (s : state) : res := run_labels sc c (repeat Run k) s.
Lemma run_labels_app l1 : forall s l2, run_labels sc c (l1 ++ l2) s = match run_labels sc c l1 s with Ok s1 => run_labels sc c l2 s1 | r => r end.
Proof. induction l1 as [|l l1 IH]; intros s l2; [reflexivity|]. cbn [app run_labels]. destruct (next s l); auto. Qed.
Lemma runs_add a b s s1 : runs a s = Ok s1 -> runs (a + b) s = runs b s1.
Proof. unfold runs. intro E. now rewrite repeat_app, run_labels_app, E. Qed.
Lemma runs_reach k s s' : reach s -> runs k s = Ok s' -> reach s'.
Proof. revert s. induction k as [|k IH]; intros s R E; [injection E as <-; exact R|]. unfold runs in E. cbn [repeat run_labels] in E. destruct (next s Run) as [| |s1] eqn:N; try discriminate. apply (IH s1); [|exact E]. apply (reach_next sc c s Run); auto. exact Logic.I. Qed.
Lemma run_out s : reach s -> todo s = 0 -> exists k s', runs k s = Ok s' /\ inside (at_ s') = false /\ taken s' = taken s /\ todo s' = 0 /\ length (cq s') <= length (cq s).
Proof.
  remember (left (at_ s)) as n eqn:En. revert s En. induction n as [n IH] using lt_wf_ind. intros s En R TD. destruct (inside (at_ s)) eqn:IN; [|exists 0, s; repeat split; auto].
  destruct (next s Run) as [| |s1] eqn:N.
  - apply C60_progress_partial in N; [|exact R|exact TD]. destruct N as [(N & _)|(N & _)]; rewrite N in IN; discriminate.
  - exfalso. exact (C60_no_fault_partial s Run R Logic.I N).
  - pose proof (reach_next sc c s Run s1 R Logic.I N) as R1. destruct (run_left s s1 (reach_range s R) IN N) as (_ & D & T & D1 & Q & _). destruct D as [D|D].
    + exists 1, s1. unfold runs. cbn [repeat run_labels]. rewrite N. repeat split; auto. congruence.
    + destruct (IH (left (at_ s1)) ltac:(lia) s1 eq_refl R1 ltac:(congruence)) as (k & s' & E & I' & T' & TD' & Q'). exists (S k), s'. unfold runs. cbn [repeat run_labels]. rewrite N. split; [exact E|]. split; [exact I'|]. split; [congruence|]. split; [exact TD'|lia].
Qed.
Lemma out_empty s : reach s -> inside (at_ s) = false -> cq s = [] -> taken s = all_frames (log s).
Proof.
  intros R IN Q. pose proof (reach_inv sc c Cf Mo Ea s R) as I. destruct (C60_order_partial s R) as (rest & T & L & _). rewrite Q in L. destruct rest; [|discriminate]. rewrite (i_out _ _ _ I IN) in T. now rewrite T, !app_nil_r.
Qed.
(** No frame is stuck: once start is done, if only the reader runs, then the stream stops or,
    after finitely many steps, all that the card has received has been given to it. *)
Theorem C60_drain_partial s : 1 <= m_poll c -> reach s -> todo s = 0 -> exists k s', runs k s = Ok s' /\ taken s' = taken s /\ (st_stopped (str s') = true \/ taken s = all_frames (log s')).
Proof.
  intros M. remember (length (cq s)) as n eqn:En. revert s En. induction n as [n IH] using lt_wf_ind. intros s En R TD.
  destruct (run_out s R TD) as (k1 & s1 & E1 & I1 & T1 & TD1 & L1). pose proof (runs_reach k1 s s1 R E1) as R1. destruct (st_stopped (str s1)) eqn:St; [exists k1, s1; auto|].
  destruct (cq s1) as [|w q] eqn:Q.
  { exists k1, s1. split; [exact E1|]. split; [exact T1|]. right. rewrite <- T1. now apply out_empty. }
  assert (E2 : exists s2, next s1 Run = Ok s2 /\ at_ s2 = Iter 0 true /\ cq s2 = cq s1 /\ taken s2 = taken s1 /\ todo s2 = todo s1).
  { cbn [MprqModel.next]. destruct (at_ s1) eqn:P; try discriminate.
    - destruct (C60_wakeup_partial s1 R1 P) as (_ & W). rewrite W by (rewrite Q; discriminate). eexists. split; [reflexivity|]. unfold enter. rewrite St. auto.
    - eexists. split; [reflexivity|]. unfold enter. rewrite St. auto.
    - exfalso. pose proof (i_gone _ _ _ (reach_inv sc c Cf Mo Ea s1 R1) P) as G. congruence. }
  destruct E2 as (s2 & E2 & P2 & Q2 & T2 & D2). pose proof (reach_next sc c s1 Run s2 R1 Logic.I E2) as R2.
  assert (E3 : exists s3 need, next s2 Run = Ok s3 /\ at_ s3 = Poll 0 need 0 /\ cq s3 = cq s2 /\ taken s3 = taken s2 /\ todo s3 = todo s2).
  { cbn [MprqModel.next]. rewrite P2. unfold do_iter. destruct (Nat.ltb_spec 0 (m_poll c)); [|lia]. destruct (m_channel c && _); eexists; eexists; (split; [reflexivity|]); repeat split. }
  destruct E3 as (s3 & need & E3 & P3 & Q3 & T3 & D3). pose proof (reach_next sc c s2 Run s3 R2 Logic.I E3) as R3.
  assert (E4 : exists s4, next s3 Run = Ok s4).
  { destruct (next s3 Run) as [| |s4] eqn:N; [|exfalso; exact (C60_no_fault_partial s3 Run R3 Logic.I N)|eauto]. apply C60_progress_partial in N; [|exact R3|congruence]. rewrite P3 in N. destruct N as [(N & _)|(N & _)]; discriminate. }
  destruct E4 as (s4 & E4). pose proof (reach_next sc c s3 Run s4 R3 Logic.I E4) as R4.
  assert (IN3 : inside (at_ s3) = true) by now rewrite P3. destruct (run_left s3 s4 (reach_range s3 R3) IN3 E4) as (_ & _ & T4 & D4 & _ & Q4). specialize (Q4 0 need 0 P3 ltac:(unfold max_iter; lia) ltac:(rewrite Q3, Q2, Q; discriminate)).
  rewrite Q3, Q2, Q in Q4. destruct (IH (length (cq s4)) ltac:(lia) s4 eq_refl R4 ltac:(congruence)) as (k5 & s5 & E5 & T5 & F5). exists (k1 + (3 + k5)), s5. split.
  { rewrite (runs_add k1 _ s s1 E1). rewrite (runs_add 3 _ s1 s4); [exact E5|]. unfold runs. cbn [repeat run_labels]. now rewrite E2, E3, E4. }
  split; [congruence|]. replace (taken s) with (taken s4) by congruence. exact F5.
Qed.
End Receiver.

(** ** End to end *)
Section EndToEnd.
Context (sc : sconfig) (c : mconfig) (hab : Z) (items : list item) (rep : bool) (cnt mps : Z) (g : gen_cfg) (pks : list packet).
Context (Cf : config_ok sc) (Mo : mcfg_ok c) (Ea : early c = false) (Hooo : sc_allow_ooo sc = true) (Hstop : sc_stop_item sc = false).
Context (HA : accepted hab items rep cnt mps g) (HPk : packets_of g pks) (Hcf : count_fits g) (Hni : no_interleave g) (Hcnt : (0 <= cnt < 2 ^ hab)%Z) (HL : (g_psize g < 2 ^ hab)%Z).
Context (Hit : Forall (fun it => (4 < item_id it)%Z /\ (addressed hab it = true -> item_data it <> [])) items).
Definition untouched (s : state) : Prop := forall stp, ~ In (ByUser stp) (log s).
Lemma runs_untouched k : forall s s', reach sc c s -> untouched s -> runs sc c k s = Ok s' -> untouched s'.
Proof.
  clear. unfold runs. induction k as [|k IH]; intros s s' R U E; [injection E as <-; exact U|]. cbn [repeat run_labels] in E. destruct (next sc c s Run) as [| |s1] eqn:N; try discriminate. apply (IH s1); [apply (reach_next sc c s Run); auto; exact Logic.I| |exact E].
  assert (LV : forall need x y, leave sc c need x = Ok y -> log x = log s -> untouched y).
  { intros need x y L X stp K. unfold leave in L. destruct (batch_end _ _ _); [|discriminate]. injection L as <-. cbn [log] in K. apply in_app_or in K as [K|[K|[]]]; [rewrite X in K; exact (U stp K)|discriminate]. }
  cbn [next] in N. destruct (at_ s) as [| |i need|i need it|i need it|i need it|]; try discriminate.
  - destruct (event s); [|discriminate]. injection N as <-. unfold enter. destruct (st_stopped _); exact U.
  - injection N as <-. unfold enter. destruct (st_stopped _); exact U.
  - unfold do_iter in N. destruct (_ <? _); [destruct (m_channel c && _); injection N as <-; exact U|]. now apply (LV need s).
  - unfold do_poll in N. destruct (_ <=? _); [injection N as <-; exact U|]. destruct (cq s) as [|w q]; [injection N as <-; exact U|]. destruct (c_ok w); [|injection N as <-; exact U].
    unfold do_completion in N. destruct (_ <? _)%Z; [discriminate|]. destruct (_ && _ && _); [discriminate|]. destruct (32768 <=? _)%Z; [injection N as <-; exact U|]. destruct (may_read _ _ _ _); [|discriminate]. destruct (do_frame _ _ _ _) as [[x [|]]|]; try discriminate; [now apply (LV _ _ _ N)|injection N as <-; exact U].
  - injection N as <-. exact U.
  - unfold do_repost, post_recv in N. destruct (_ <=? _)%Z; [discriminate|]. injection N as <-. exact U.
Qed.
(** The card has received frames with all packets of a heap, among others, start is done and
    the user has not touched the stream: then, if the reader goes on, the heap is received. *)
Theorem C60_end_to_end_partial s dss : 1 <= m_poll c -> reach sc c s -> todo s = 0 -> untouched s -> Forall2 frame_ds (taken s) dss -> (mps <= m_max c)%Z -> all_there cnt pks (concat dss) ->
  exists k s', runs sc c k s = Ok s' /\ (room sc cnt (str s') -> received hab items cnt (str s')).
Proof.
  intros M R TD U F Hm HT. destruct (C60_drain_partial sc c Cf Mo Ea s M R TD) as (k & s' & E & T & D). pose proof (runs_reach sc c k s s' R E) as R'. exists k, s'. split; [exact E|]. intro HR.
  pose proof (runs_untouched k s s' R U E) as U'. set (rc := {| IbvRecvModel.n_slots := 0; IbvRecvModel.raw_size := 0; IbvRecvModel.max_size := m_max c; IbvRecvModel.max_poll := 0; IbvRecvModel.channel := false |}).
  destruct (C60_stream_partial sc c Cf Mo Ea s' R') as (ops & Mn & Do & Ro).
  assert (PB : Forall bytes_ok (taken s')) by apply (i_bytes _ _ _ (reach_inv sc c Cf Mo Ea s' R')).
  assert (OB : Forall is_batch ops /\ flat_map op_pkts ops = flat_map (IbvRecvProofs.pk rc) (all_frames (log s')) /\ forall o, In o ops -> o = Flush \/ exists l, o = Batch l false).
  { assert (BA : Forall bytes_ok (all_frames (log s'))). { destruct (C60_order_partial sc c Cf Mo Ea s' R') as (rest & TT & _). rewrite TT in PB. apply Forall_app in PB. tauto. }
    revert U' BA Mn. unfold untouched. generalize (log s'). clear. intros l U' BA Mn. induction Mn as [|d o l ops X Mn IH]; [split; [constructor|]; split; [reflexivity|intros ? []]|]. cbn [all_frames flat_map] in BA. apply Forall_app in BA as (B1 & B2). destruct IH as (I1 & I2 & I3); [intros stp K; apply (U' stp); now right|exact B2|].
    destruct X as [fs ds Fd Bd|stp]; [|exfalso; apply (U' stp); now left]. split; [constructor; [exact Logic.I|exact I1]|]. split.
    - cbn [all_frames flat_map op_pkts frames_of]. rewrite flat_map_app. f_equal; [|exact I2]. rewrite IbvRecvProofs.pk_concat. do 2 f_equal. clear - Fd B1. cbn [frames_of] in B1. induction Fd as [|f d fs ds H _ IH]; [reflexivity|]. inversion B1; subst. cbn [map]. rewrite <- IH by assumption. f_equal. now apply IbvRecvProps.frame_ds_unique.
    - intros o [<-|Ho]; [right; eauto|auto]. }
  destruct OB as (O1 & O2 & O3).
  assert (NS : st_stopped (str s') = false) by (eapply InprocProps.only_batches; [exact Hstop|exact Cf|exact Do|exact O3|exact Ro]).
  destruct D as [D|D]; [congruence|].
  apply (batches_receive sc hab items rep cnt mps g pks Cf Hooo Hstop HA HPk Hcf Hni Hcnt HL Hit (fun _ => m_max c) (concat dss) ops (str s') (rs s')); trivial.
  - rewrite O2, <- D, IbvRecvProofs.pk_concat. f_equal. f_equal. rewrite T in PB. clear - F PB. induction F as [|f d fs ds H _ IH]; [reflexivity|]. inversion PB; subst. cbn [map]. rewrite IH by assumption. f_equal. symmetry. now apply IbvRecvProps.frame_ds_unique.
  - intros p Hp. destruct (C04_packets_fit_and_carry_payload _ _ _ _ _ _ HA) as (pks' & P' & K4 & _). rewrite (packets_of_unique _ _ _ P' HPk) in K4. rewrite Forall_forall in K4. destruct (K4 p Hp) as (? & ? & ? & ? & K5). cbv beta. lia.
Qed.
End EndToEnd.

(** *** Example *)
(** Two buffers of three strides.  After the first is posted, the second packet of heap 9
    arrives, then the second buffer is posted, the card skips a stride, a frame that is not
    UDP arrives and, after the reader has asked for notification, the first packet. *)
Definition ex_c : mconfig := {| wqe := 2; wqe_cnt := 2; n_strides := 3; stride := 64; cqe := 6; m_max := 72; m_poll := 2; m_channel := true; early := false |}.
Definition ex_labels : list label := Eval vm_compute in
  [Start; CardRecv (ex_frame ex_p1) 2; Start; Run; Run; Run; Run; CardFill 1 0; Run; Run; Run; CardRecv [1; 2; 3]%Z 1; Run; CardRecv (ex_frame ex_p0) 2].
Definition get (r : res) : state := match r with Ok s => s | _ => init ex_sc3 ex_c end.
Definition is_ok (r : res) : bool := match r with Ok _ => true | _ => false end.
Definition ex_s : state := get (run_labels ex_sc3 ex_c ex_labels (init ex_sc3 ex_c)).
Definition ex_end : state := get (run_labels ex_sc3 ex_c (repeat Run 12) ex_s).
Lemma get_ok r : is_ok r = true -> r = Ok (get r).
Proof. now destruct r. Qed.
Lemma labels_reach sc c ls s s' : reach sc c s -> Forall sane ls -> run_labels sc c ls s = Ok s' -> reach sc c s'.
Proof. intros R Sa. revert s R. induction Sa as [|l ls S1 _ IH]; intros s R E; [injection E as <-; exact R|]. cbn [run_labels] in E. destruct (next sc c s l) as [| |s1] eqn:N; try discriminate. apply (IH s1); [exact (reach_next sc c s l s1 R S1 N)|exact E]. Qed.
Lemma ex_cfg : mcfg_ok ex_c.
Proof. constructor; unfold wqe_size; cbn [ex_c wqe wqe_cnt n_strides stride cqe]; try lia. exists 1%Z. split; [lia|reflexivity]. Qed.
Lemma ex_sc3_ok : config_ok ex_sc3.
Proof. unfold config_ok. cbn. lia. Qed.
Lemma ex_parsed l : Forall bytes_ok l -> Forall2 frame_ds l (map (fun f => parsed Ethernet (Frame f (zlen f))) l).
Proof. intro B. induction B as [|f l Bf _ IH]; [constructor|]. constructor; [now apply IbvRecvProofs.frame_parsed|exact IH]. Qed.
Example C60_ex : config_ok ex_sc3 /\ mcfg_ok ex_c /\ reach ex_sc3 ex_c ex_s /\ todo ex_s = 0 /\ untouched ex_s /\ Forall2 frame_ds (taken ex_s) [[ex_p1]; []; [ex_p0]] /\
  cq ex_s = [{| c_ok := true; c_cnt := 65536 + 3 |}; {| c_ok := true; c_cnt := 2 * 65536 + 114 |}] /\ at_ ex_s = Poll 1 false 1 /\ event ex_s = true /\
  reach ex_sc3 ex_c ex_end /\ at_ ex_end = Waiting /\ armed ex_end = true /\ (head ex_end, tail ex_end, wstart ex_end) = (4, 2, 0)%Z /\ log ex_end = [Handled (taken ex_s); Handled []] /\ rs ex_end = [true; true] /\
  map (fun o => (oh_why o, lh_cnt (oh_heap o))) (st_out (str ex_end)) = [(Complete, 9%Z)].
Proof.
  split; [exact ex_sc3_ok|]. split; [exact ex_cfg|].
  assert (S1 : Forall sane ex_labels) by (unfold ex_labels; repeat (constructor; [first [exact Logic.I|apply bytes_by; vm_compute; reflexivity]|]); constructor).
  assert (E1 : run_labels ex_sc3 ex_c ex_labels (init ex_sc3 ex_c) = Ok ex_s) by (apply get_ok; vm_compute; reflexivity).
  assert (R1 : reach ex_sc3 ex_c ex_s) by (apply (labels_reach _ _ ex_labels (init ex_sc3 ex_c)); [constructor|exact S1|exact E1]). split; [exact R1|]. split; [vm_compute; reflexivity|].
  split; [intros stp; vm_compute; intros []|]. split.
  { replace [[ex_p1]; []; [ex_p0]] with (map (fun f => parsed Ethernet (Frame f (zlen f))) (taken ex_s)) by (vm_compute; reflexivity). apply ex_parsed. exact (i_bytes _ _ _ (reach_inv ex_sc3 ex_c ex_sc3_ok ex_cfg eq_refl ex_s R1)). }
  split; [vm_compute; reflexivity|]. split; [vm_compute; reflexivity|]. split; [vm_compute; reflexivity|]. split; [|split; [vm_compute; reflexivity|]].
  { apply (labels_reach _ _ (repeat Run 12) ex_s); [exact R1|cbn [repeat]; repeat (constructor; [exact Logic.I|]); constructor|apply get_ok; vm_compute; reflexivity]. }
  split; [vm_compute; reflexivity|]. split; [vm_compute; reflexivity|]. split; [vm_compute; reflexivity|]. split; vm_compute; reflexivity.
Qed.
Example C60_there_ex : exists g, accepted 48 ex_items false 9 72 g /\ packets_of g (run_pkts 48 ex_items 72) /\ all_there 9 (run_pkts 48 ex_items 72) (concat [[ex_p1]; []; [ex_p0]]) /\ room ex_sc3 9 (str ex_end).
Proof. destruct C58_there_ex as (g & A & P & _ & _ & T & _). exists g. split; [exact A|]. split; [exact P|]. split; [exact T|]. vm_compute. auto. Qed.

(** ** Start is not safe *)
(** The claims need the first buffer not to be used up before start is done.  start makes
    handlers possible before it posts the buffers, and holds no lock that they take: if the
    first buffer is used up before the second is posted, a handler posts the first again
    in its place.  From then on the reader looks for frames elsewhere than the card puts
    them.  Three buffers, a frame in each: the second frame is lost, and bytes that were
    never received are taken for a frame; if start goes on in between, the reader reads
    what the card may be writing. *)
Definition bad_c : mconfig := {| wqe := 3; wqe_cnt := 4; n_strides := 1; stride := 128; cqe := 3; m_max := 72; m_poll := 2; m_channel := true; early := true |}.
Definition bad_labels : list label := Eval vm_compute in [Start; CardRecv (ex_frame ex_p1) 1; Run; Run; Run; Run; Run; CardRecv (ex_frame ex_p0) 1; Run; Run; Run; Run; Run; Run; Run].
Definition bad_early : list label := Eval vm_compute in [Start; CardRecv (ex_frame ex_p1) 1; Run; Run; Run; Run; Run; CardRecv (ex_frame ex_p0) 1; Start].
Theorem C60_start_refuted : exists sc c s s', config_ok sc /\ mcfg_ok c /\
  reach sc c s /\ at_ s = Waiting /\ cq s = [] /\ taken s <> all_frames (log s) /\ ~ incl (all_frames (log s)) (taken s) /\
  reach sc c s' /\ next sc c s' Run = Fault.
Proof.
  exists ex_sc3, bad_c, (get (run_labels ex_sc3 bad_c bad_labels (init ex_sc3 bad_c))), (get (run_labels ex_sc3 bad_c bad_early (init ex_sc3 bad_c))).
  split; [exact ex_sc3_ok|]. split; [constructor; unfold wqe_size; cbn [bad_c wqe wqe_cnt n_strides stride cqe]; try lia; exists 2%Z; split; [lia|reflexivity]|].
  assert (RL : forall ls, Forall sane ls -> is_ok (run_labels ex_sc3 bad_c ls (init ex_sc3 bad_c)) = true -> reach ex_sc3 bad_c (get (run_labels ex_sc3 bad_c ls (init ex_sc3 bad_c)))) by (intros ls Sa E; apply (labels_reach _ _ ls (init ex_sc3 bad_c)); [constructor|exact Sa|now apply get_ok]).
  split; [apply RL; [unfold bad_labels; repeat (constructor; [first [exact Logic.I|apply bytes_by; vm_compute; reflexivity]|]); constructor|vm_compute; reflexivity]|].
  split; [vm_compute; reflexivity|]. split; [vm_compute; reflexivity|]. split; [vm_compute; discriminate|]. split.
  { intro H. assert (B : In (nth 1 (all_frames (log (get (run_labels ex_sc3 bad_c bad_labels (init ex_sc3 bad_c))))) []) (taken (get (run_labels ex_sc3 bad_c bad_labels (init ex_sc3 bad_c))))) by (apply H; apply nth_In; vm_compute; auto). revert B. vm_compute. intros [K|[K|[]]]; discriminate. }
  split; [|vm_compute; reflexivity]. apply RL; [unfold bad_early; repeat (constructor; [first [exact Logic.I|apply bytes_by; vm_compute; reflexivity]|]); constructor|vm_compute; reflexivity].
Qed.

Print Assumptions C60_config.
Print Assumptions C60_no_fault_partial.
Print Assumptions C60_stream_partial.
Print Assumptions C60_order_partial.
Print Assumptions C60_buffers_partial.
Print Assumptions C60_wakeup_partial.
Print Assumptions C60_progress_partial.
Print Assumptions C60_handler_ends_partial.
Print Assumptions C60_drain_partial.
Print Assumptions C60_end_to_end_partial.
Print Assumptions C60_start_refuted.
