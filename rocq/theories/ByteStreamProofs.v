(** Invariants of the byte-stream writers. *)
From Coq Require Import ZArith List Bool Lia Arith.
From Verif Require Import Base ConcBase SendStreamModel SendStreamSpec SendStreamBase SendStreamProofs SendStreamProofs2 SendStreamProofs3 SendStreamProofs4 SendStreamProps ByteStreamModel ByteStreamSpec.
Import ListNotations.
Open Scope Z_scope.

(** *** What the steps of the send stream do to the writer *)
Ltac sd := repeat match goal with
  | H : context [match ?x with _ => _ end] |- _ => destruct x eqn:?; try discriminate
  | H : Ok _ _ = Ok _ _ |- _ => injection H as <- <-
  end.
Ltac fin := cbn; repeat split; auto.

Lemma user_w s l s' e : user_label l = true -> s_step_fn s l = Ok s' e -> s_w s' = s_w s /\ packets e = [] /\ writes e = [].
Proof.
  intros U H. destruct l; try discriminate U; cbn [s_step_fn] in H.
  - sd; fin.
  - unfold user_step in H. destruct (nth_error (s_threads s) t) as [p|]; [|discriminate]. destruct p; try discriminate.
    + destruct todo as [|h todo].
      * unfold user_commit in H. cbv zeta in H. sd; fin.
      * unfold user_add in H. cbv zeta in H. sd; fin.
    + sd; fin.
    + sd; fin.
    + sd; fin.
    + sd; fin.
  - sd; fin.
  - sd; fin.
  - sd; fin.
Qed.
Lemma start_w s s' e : s_step_fn s LStart = Ok s' e ->
  e = [] /\ w_pc (s_w s') = WRun /\ w_flight (s_w s') = w_flight (s_w s) /\ w_fin (s_w s') = w_fin (s_w s).
Proof. cbn [s_step_fn]. intro H. sd; fin. Qed.
Lemma get_w s s' e : s_step_fn s LGet = Ok s' e -> w_pc (s_w s') = WRun /\ w_fin (s_w s') = w_fin (s_w s) /\
  (e = [] /\ w_empty (s_w s') = true /\ w_flight (s_w s') = w_flight (s_w s) \/
   exists p sub last i, e = [EPacket p sub last] /\ w_flight (s_w s') = w_flight (s_w s) ++ [(i, last)]).
Proof.
  cbn [s_step_fn]. intro H. destruct (w_pc (s_w s)) eqn:PC; try discriminate. unfold get_packet in H. cbv zeta in H.
  destruct (w_active (s_w s) =? _); [injection H as <- <-; cbn; repeat split; auto|].
  destruct (get_queue _ _ (w_active (s_w s))) as [q|]; [|discriminate]. destruct (q_pkts q) as [|p l]; [discriminate|]. destruct (get_queue _ _ (w_start (s_w s))); [|discriminate].
  destruct (match q_mode q with RoundRobin => _ | Serial => _ end) as [[next|]|]; [| |discriminate]; injection H as <- <-; cbn; (split; [auto|]; split; [auto|]); right; repeat eexists.
Qed.
Lemma written_w s n err s' e : s_step_fn s (LWritten n err) = Ok s' e -> exists i last fl, w_flight (s_w s) = (i, last) :: fl /\
  e = [EWritten n err last] /\ w_pc (s_w s') = WRun /\ w_flight (s_w s') = fl /\ w_fin (s_w s') = (w_fin (s_w s) + if last then 1 else 0)%nat.
Proof.
  cbn [s_step_fn]. intro H. destruct (w_pc (s_w s)); try discriminate. destruct (w_flight (s_w s)) as [|[i last] fl]; [discriminate|]. destruct (get_queue _ _ i); [|discriminate].
  injection H as <- <-. exists i, last, fl. fin.
Qed.
Lemma batch_w s n s' e : batch_step s n = Ok s' e -> e = [] /\ (exists k hs ws, w_pc (s_w s') = WDone k hs ws) /\ w_flight (s_w s') = w_flight (s_w s) /\
  w_fin (s_w s') = w_fin (s_w s) /\ w_empty (s_w s') = w_empty (s_w s).
Proof.
  unfold batch_step. cbv zeta. destruct (vacate _ _ _ _ _ _) as [[[[sl hd] hs] ws]|]; [|discriminate]. intro H. injection H as <- <-. cbn. repeat split; auto. eauto.
Qed.
Lemma complete_w s n s' e : s_step_fn s (LComplete n) = Ok s' e -> e = [] /\ (exists k hs ws, w_pc (s_w s') = WDone k hs ws) /\ w_flight (s_w s') = w_flight (s_w s) /\
  w_fin (s_w s') = (w_fin (s_w s) - n)%nat /\ w_empty (s_w s') = w_empty (s_w s).
Proof.
  cbn [s_step_fn]. intro H. destruct (w_pc (s_w s)); try discriminate. destruct (_ && _); [|discriminate]. apply batch_w in H. cbn in H. exact H.
Qed.
Lemma next_w s s' e : s_step_fn s LNext = Ok s' e -> packets e = [] /\ writes e = [] /\ (w_pc (s_w s') = WRun \/ exists k hs ws, w_pc (s_w s') = WDone k hs ws) /\
  w_flight (s_w s') = w_flight (s_w s) /\ w_fin (s_w s') = w_fin (s_w s) /\ w_empty (s_w s') = w_empty (s_w s).
Proof.
  cbn [s_step_fn]. unfold complete_step. intro H. destruct (w_pc (s_w s)) as [| |k hs ws]; try discriminate. destruct hs as [|[[id r] b] hs].
  - destruct ws as [|t ws].
    + destruct k as [|k]; [injection H as <- <-; fin|]. apply batch_w in H as (-> & H & H1 & H2 & H3). repeat split; auto.
    + destruct k; (destruct (nth_error (s_threads s) t); [|discriminate]; injection H as <- <-; cbn; repeat split; eauto).
  - destruct k; injection H as <- <-; cbn; repeat split; eauto.
Qed.
Lemma post_w s s' e : s_step_fn s LPost = Ok s' e -> e = [] /\ w_pc (s_w s') = WIdle /\ w_flight (s_w s') = w_flight (s_w s) /\ w_fin (s_w s') = w_fin (s_w s).
Proof. cbn [s_step_fn]. intro H. destruct (w_pc (s_w s)); try discriminate. injection H as <- <-. fin. Qed.
Lemma wait_w s s' e : s_step_fn s LWait = Ok s' e -> e = [] /\ w_pc (s_w s') = WIdle /\ w_flight (s_w s') = [] /\ w_fin (s_w s') = O.
Proof.
  cbn [s_step_fn]. intro H. destruct (w_pc (s_w s)) eqn:PC; try discriminate. destruct (s_lock s); try discriminate. destruct (w_flight (s_w s)) eqn:Fl; try discriminate.
  destruct (w_fin (s_w s)) eqn:Fi; try discriminate. destruct (w_empty (s_w s)); try discriminate. destruct (s_tail s =? _); injection H as <- <-; fin.
Qed.

(** *** Readings of logs *)
Lemma sevs_app a b : sevs (a ++ b) = sevs a ++ sevs b.
Proof. apply flat_map_app. Qed.
Lemma on_wire_app a b : on_wire (a ++ b) = on_wire a ++ on_wire b.
Proof. apply flat_map_app. Qed.
Lemma sevs_map e : sevs (map BSev e) = e.
Proof. induction e as [|x e IH]; [reflexivity|]. cbn [map sevs flat_map app]. f_equal. exact IH. Qed.
Lemma on_wire_map e : on_wire (map BSev e) = [].
Proof. induction e as [|x e IH]; [reflexivity|]. exact IH. Qed.
Lemma packets_app a b : packets (a ++ b) = packets a ++ packets b.
Proof. induction a as [|e a IH]; [reflexivity|]. destruct e; cbn [app packets]; rewrite ?IH; reflexivity. Qed.
Lemma handed_app a b : handed (a ++ b) = handed a ++ handed b.
Proof. unfold handed. now rewrite packets_app, map_app. Qed.
Lemma writes_app a b : writes (a ++ b) = writes a ++ writes b.
Proof. apply flat_map_app. Qed.

Section Wired.
Variable wire : pkt -> list Z * list (list Z).
Lemma wired_snoc ps ws p w : length ps = length ws -> wired wire (ps ++ [p]) (ws ++ [w]) = wired wire ps ws ++ firstn (Z.to_nat (fst w)) (wbytes wire p).
Proof.
  intro L. unfold wired. assert (E : combine (ps ++ [p]) (ws ++ [w]) = combine ps ws ++ [(p, w)]).
  { revert ws L. induction ps as [|q ps IH]; intros [|v ws] L; try discriminate L; [reflexivity|]. cbn [app combine]. f_equal. apply IH. now injection L. }
  rewrite E, map_app, concat_app. cbn [map concat fst snd]. now rewrite app_nil_r.
Qed.

(** *** The invariant *)
(** The program counter fits the state of the writer. *)
Definition coupled (b : bst) : Prop :=
  let w := s_w (b_s b) in
  match b_pc b with
  | BIdle => w_pc w = WIdle /\ w_flight w = [] /\ w_fin w = O
  | BLoop _ g => w_pc w = WRun /\ w_flight w = [] /\ w_fin w = g
  | BBuf _ g _ _ last => w_pc w = WRun /\ (exists i, w_flight w = [(i, last)]) /\ w_fin w = g
  | BEnd r g => w_pc w = WRun /\ w_flight w = [] /\ w_fin w = g /\ (r = REmpty -> w_empty w = true)
  | BComp r => (exists k hs ws, w_pc w = WDone k hs ws) /\ w_flight w = [] /\ w_fin w = O /\ (r = REmpty -> w_empty w = true)
  | BFinal r => w_pc w = WRun /\ w_flight w = [] /\ w_fin w = O /\ (r = REmpty -> w_empty w = true)
  end.
(** The wire carries what has been written, and the part of the present packet. *)
Definition carried (b : bst) (log : list bev) : Prop :=
  let ps := handed (sevs log) in let ws := writes (sevs log) in
  match b_pc b with
  | BBuf _ _ bufs acc _ => exists ps' p l1, ps = ps' ++ [p] /\ Forall2 (write_ok wire) ps' ws /\ bufs <> [] /\
      wbytes wire p = l1 ++ concat bufs /\ acc = zlen l1 /\ on_wire log = wired wire ps' ws ++ l1
  | _ => Forall2 (write_ok wire) ps ws /\ on_wire log = wired wire ps ws
  end.

Lemma carried_quiet b b' log e : carried b log -> (forall i g bufs acc l, b_pc b <> BBuf i g bufs acc l) -> (forall i g bufs acc l, b_pc b' <> BBuf i g bufs acc l) ->
  on_wire e = [] -> handed (sevs e) = [] -> writes (sevs e) = [] -> carried b' (log ++ e).
Proof.
  unfold carried. intros C N N' O P W. rewrite sevs_app, handed_app, writes_app, on_wire_app, O, P, W, !app_nil_r.
  destruct (b_pc b'); try (exfalso; eapply N'; reflexivity); destruct (b_pc b); try (exfalso; eapply N; reflexivity); exact C.
Qed.
Lemma carried_same b b' log e : carried b log -> b_pc b' = b_pc b -> on_wire e = [] -> handed (sevs e) = [] -> writes (sevs e) = [] -> carried b' (log ++ e).
Proof. unfold carried. intros C E O P W. rewrite sevs_app, handed_app, writes_app, on_wire_app, O, P, W, !app_nil_r, E. exact C. Qed.

Lemma Forall2_snoc {A B} (P : A -> B -> Prop) l1 l2 x y : Forall2 P l1 l2 -> P x y -> Forall2 P (l1 ++ [x]) (l2 ++ [y]).
Proof. intros. apply Forall2_app; auto. Qed.
Lemma Forall2_len {A B} (P : A -> B -> Prop) l1 l2 : Forall2 P l1 l2 -> length l1 = length l2.
Proof. induction 1; cbn; auto. Qed.
Lemma zlen_firstn_le (l : list Z) n : (n <= length l)%nat -> zlen (firstn n l) = Z.of_nat n.
Proof. intro H. unfold zlen. rewrite firstn_length. lia. Qed.

Variable kind : bkind.

(** End of a packet. *)
Lemma end_packet_ok s i g acc err last b' e log l1 :
  (exists k, w_flight (s_w s) = [(k, last)]) -> w_fin (s_w s) = g ->
  forall ps' p, handed (sevs log) = ps' ++ [p] -> Forall2 (write_ok wire) ps' (writes (sevs log)) ->
  on_wire log = wired wire ps' (writes (sevs log)) ++ l1 ->
  forall l2, firstn (length l1 + length l2) (wbytes wire p) = l1 ++ l2 -> (length l1 + length l2 <= length (wbytes wire p))%nat -> acc = zlen l1 + zlen l2 ->
  (err = 0 -> l1 ++ l2 = wbytes wire p) ->
  end_packet kind s i g acc err last = Some (b', e) ->
  coupled b' /\ carried b' (log ++ BOut l2 :: e) /\ exists s', s_step_fn s (LWritten acc err) = Ok s' (sevs e) /\ s' = b_s b'.
Proof.
  intros (k & Fl) Fi ps' p HP FW OW l2 HF HL HA HE H. unfold end_packet, via in H. destruct (s_step_fn s (LWritten acc err)) as [| |s' e'] eqn:E; try discriminate.
  injection H as <- <-. destruct (written_w _ _ _ _ _ E) as (i' & last' & fl & W1 & -> & W3 & W4 & W5). rewrite Fl in W1. injection W1 as <- <- <-.
  assert (FI : w_fin (s_w s') = if last then S g else g) by (rewrite W5, Fi; destruct last; lia).
  assert (CO : coupled {| b_s := s'; b_pc := match kind with Streambuf => if Nat.ltb (S i) batch_max then BLoop (S i) (if last then S g else g) else BEnd RSuccess (if last then S g else g) | Tcp => BEnd RSuccess (if last then S g else g) end |}).
  { unfold coupled. cbn [b_pc b_s]. destruct kind; [destruct (Nat.ltb _ _)|]; repeat split; auto; discriminate. }
  split; [exact CO|]. split; [|cbn [map sevs flat_map app b_s]; eauto].
  assert (L12 : length ps' = length (writes (sevs log))) by (eapply Forall2_len; eauto).
  assert (C : Forall2 (write_ok wire) (handed (sevs (log ++ BOut l2 :: map BSev [EWritten acc err last]))) (writes (sevs (log ++ BOut l2 :: map BSev [EWritten acc err last]))) /\
    on_wire (log ++ BOut l2 :: map BSev [EWritten acc err last]) = wired wire (handed (sevs (log ++ BOut l2 :: map BSev [EWritten acc err last]))) (writes (sevs (log ++ BOut l2 :: map BSev [EWritten acc err last])))).
  { rewrite sevs_app, on_wire_app, handed_app, writes_app. cbn [map sevs on_wire flat_map app handed packets writes]. rewrite !app_nil_r, HP. split.
    - apply Forall2_snoc; [exact FW|]. unfold write_ok. cbn [fst snd]. rewrite HA. unfold zlen. split; [lia|]. intro E0. rewrite <- (HE E0), app_length. lia.
    - rewrite wired_snoc by exact L12. cbn [fst]. rewrite HA. replace (Z.to_nat (zlen l1 + zlen l2)) with (length l1 + length l2)%nat by (unfold zlen; lia). rewrite HF, OW. now rewrite <- app_assoc. }
  unfold carried. cbn [b_pc]. destruct kind; [destruct (Nat.ltb _ _)|]; exact C.
Qed.

(** Each step keeps the invariant, and is one step of the send stream or none. *)
Lemma b_step_ok b l b' e log : coupled b -> carried b log -> b_step kind wire b l = Some (b', e) ->
  coupled b' /\ carried b' (log ++ e) /\ ((b_s b' = b_s b /\ sevs e = []) \/ exists sl, s_step_fn (b_s b) sl = Ok (b_s b') (sevs e)).
Proof.
  intros CO CA H. destruct b as [s pc]. unfold b_step in H. cbn [b_s b_pc] in H. destruct l as [l| |sl|n err| | |].
  - (* user *)
    destruct (user_label l) eqn:U; [|discriminate]. unfold via in H. destruct (s_step_fn s l) as [| |s' e'] eqn:E; try discriminate. injection H as <- <-.
    destruct (user_w _ _ _ _ U E) as (W & P & Wr). split; [|split].
    + unfold coupled in *. cbn [b_s b_pc] in *. rewrite W. exact CO.
    + eapply carried_same; [exact CA|reflexivity|apply on_wire_map| |]; rewrite sevs_map; [unfold handed; now rewrite P|exact Wr].
    + right. exists l. rewrite sevs_map. exact E.
  - destruct pc; try discriminate. unfold via in H. destruct (s_step_fn s LStart) as [| |s' e'] eqn:E; try discriminate. injection H as <- <-. destruct (start_w _ _ _ E) as (-> & W1 & W2 & W3).
    destruct CO as (C1 & C2 & C3). cbn [b_s] in *. split; [|split].
    + unfold coupled. cbn [b_pc b_s]. rewrite W1, W2, W3, C2, C3. auto.
    + eapply carried_quiet; [exact CA|discriminate|discriminate|reflexivity|reflexivity|reflexivity].
    + right. exists LStart. exact E.
  - destruct pc; try (destruct sl; discriminate). destruct CO as (C1 & C2 & C3). cbn [b_s] in *. destruct sl.
    + injection H as <- <-. split; [|split; [|left; auto]].
      * unfold coupled. cbn [b_pc b_s]. repeat split; auto; discriminate.
      * eapply carried_quiet; [exact CA|discriminate|discriminate|reflexivity|reflexivity|reflexivity].
    + unfold via in H. destruct (s_step_fn s LGet) as [| |s' e'] eqn:E; try discriminate. destruct (get_w _ _ _ E) as (W1 & W2 & [(-> & W3 & W4)|(p & sub & last & k & -> & W4)]); injection H as <- <-.
      * split; [|split; [|right; exists LGet; exact E]].
        -- unfold coupled. cbn [b_pc b_s]. rewrite W1, W2, W4. auto.
        -- eapply carried_quiet; [exact CA|discriminate|discriminate|reflexivity|reflexivity|reflexivity].
      * split; [|split; [|right; exists LGet; exact E]].
        -- unfold coupled. cbn [b_pc b_s]. rewrite W1, W2, W4, C2. repeat split; auto. exists k. reflexivity.
        -- unfold carried in *. cbn [b_pc] in *. rewrite sevs_app, on_wire_app, handed_app, writes_app. cbn [map sevs on_wire flat_map app handed packets writes fst]. rewrite !app_nil_r.
           destruct CA as [CA1 CA2]. exists (handed (sevs log)), p, []. split; [reflexivity|]. split; [exact CA1|]. split; [discriminate|]. split; [reflexivity|]. split; [reflexivity|]. rewrite app_nil_r. exact CA2.
  - destruct pc as [| |i g bufs acc last| | |]; try discriminate. destruct bufs as [|buf bufs]; [discriminate|]. pose proof CO as (C1 & C2 & C3). cbn [b_s] in *.
    unfold carried in CA. cbn [b_pc] in CA. destruct CA as (ps' & p & l1 & K1 & K2 & _ & K4 & K5 & K6). destruct kind eqn:Ek.
    + destruct (Nat.ltb_spec (length buf) n) as [|Hn]; [discriminate|]. destruct (Nat.ltb_spec n (length buf)) as [Hs|Hs].
      * destruct (end_packet Streambuf s i g (acc + Z.of_nat n) err_eof last) as [[b1 e1]|] eqn:E; [|discriminate]. injection H as <- <-. rewrite <- Ek in E.
        edestruct (end_packet_ok s i g (acc + Z.of_nat n) err_eof last b1 e1 log l1 C2 C3 ps' p K1 K2 K6 (firstn n buf)) as (R1 & R2 & s' & R3 & R4).
        -- rewrite K4. cbn [concat]. rewrite firstn_length, Nat.min_l by lia. rewrite firstn_app_2. f_equal. rewrite firstn_app. replace (n - length buf)%nat with O by lia. cbn [firstn]. now rewrite app_nil_r.
        -- rewrite K4, firstn_length, app_length. cbn [concat]. rewrite app_length. lia.
        -- rewrite zlen_firstn_le by lia. lia.
        -- discriminate.
        -- exact E.
        -- split; [exact R1|]. split; [exact R2|]. right. exists (LWritten (acc + Z.of_nat n) err_eof). subst s'. exact R3.
      * assert (En : n = length buf) by lia. destruct bufs as [|b2 bufs].
        -- destruct (end_packet Streambuf s i g (acc + Z.of_nat n) 0 last) as [[b1 e1]|] eqn:E; [|discriminate]. injection H as <- <-. rewrite <- Ek in E.
           cbn [concat] in K4. rewrite app_nil_r in K4. rewrite En, firstn_all.
           edestruct (end_packet_ok s i g (acc + Z.of_nat n) 0 last b1 e1 log l1 C2 C3 ps' p K1 K2 K6 buf) as (R1 & R2 & s' & R3 & R4).
           ++ rewrite K4, <- app_length. apply firstn_all.
           ++ rewrite K4, app_length. lia.
           ++ unfold zlen. rewrite En, K5. unfold zlen. lia.
           ++ auto.
           ++ exact E.
           ++ split; [exact R1|]. split; [exact R2|]. right. exists (LWritten (acc + Z.of_nat n) 0). subst s'. exact R3.
        -- injection H as <- <-. split; [exact CO|]. split; [|left; auto]. unfold carried. cbn [b_pc]. rewrite sevs_app, on_wire_app. cbn [sevs on_wire flat_map app]. rewrite !app_nil_r.
           exists ps', p, (l1 ++ buf). split; [exact K1|]. split; [exact K2|]. split; [discriminate|]. split; [rewrite K4; cbn [concat]; now rewrite <- app_assoc|]. split; [rewrite K5, En; unfold zlen; rewrite app_length; lia|].
           rewrite En, firstn_all, K6. now rewrite <- app_assoc.
    + destruct (Nat.ltb_spec (length (concat (buf :: bufs))) n) as [|Hn]; [discriminate|]. cbn [orb] in H. destruct (Nat.ltb n (length (concat (buf :: bufs))) && (err =? 0)) eqn:Hs; [discriminate|].
      destruct (end_packet Tcp s i g (acc + Z.of_nat n) err last) as [[b1 e1]|] eqn:E; [|discriminate]. injection H as <- <-. rewrite <- Ek in E.
      edestruct (end_packet_ok s i g (acc + Z.of_nat n) err last b1 e1 log l1 C2 C3 ps' p K1 K2 K6 (firstn n (concat (buf :: bufs)))) as (R1 & R2 & s' & R3 & R4).
      * rewrite K4, firstn_length, Nat.min_l by lia. apply firstn_app_2.
      * rewrite K4, firstn_length, app_length. lia.
      * rewrite zlen_firstn_le by lia. lia.
      * intros ->. destruct (Nat.ltb_spec n (length (concat (buf :: bufs)))); [discriminate|]. rewrite firstn_all2 by lia. now rewrite K4.
      * exact E.
      * split; [exact R1|]. split; [exact R2|]. right. exists (LWritten (acc + Z.of_nat n) err). subst s'. exact R3.
  - destruct pc as [| | |r g| |]; try discriminate. destruct CO as (C1 & C2 & C3 & C4). cbn [b_s] in *. destruct g as [|g].
    + injection H as <- <-. split; [unfold coupled; cbn [b_pc b_s]; auto|]. split; [|left; auto]. eapply carried_quiet; [exact CA|discriminate|discriminate|reflexivity|reflexivity|reflexivity].
    + unfold via in H. destruct (s_step_fn s (LComplete (S g))) as [| |s' e'] eqn:E; try discriminate. injection H as <- <-. destruct (complete_w _ _ _ _ E) as (-> & W1 & W2 & W3 & W4).
      split; [|split; [|right; exists (LComplete (S g)); exact E]].
      * unfold coupled. cbn [b_pc b_s]. rewrite W2, W3, W4, C2, C3, Nat.sub_diag. auto.
      * eapply carried_quiet; [exact CA|discriminate|discriminate|reflexivity|reflexivity|reflexivity].
  - destruct pc as [| | | |r|]; try discriminate. destruct CO as (C1 & C2 & C3 & C4). cbn [b_s] in *. unfold via in H. destruct (s_step_fn s LNext) as [| |s' e'] eqn:E; try discriminate. injection H as <- <-.
    destruct (next_w _ _ _ E) as (P & Wr & W1 & W2 & W3 & W4). split; [|split; [|right; exists LNext; rewrite sevs_map; exact E]].
    + unfold coupled. cbn [b_pc b_s]. destruct W1 as [W1|(k & hs & ws & W1)]; rewrite W1; rewrite W2, W3, W4; repeat split; auto. eauto.
    + eapply carried_quiet; [exact CA|discriminate|cbn [b_pc]; destruct (w_pc (s_w s')); discriminate|apply on_wire_map| |]; rewrite sevs_map; [unfold handed; now rewrite P|exact Wr].
  - destruct pc as [| | | | |r]; try discriminate. destruct CO as (C1 & C2 & C3 & C4). cbn [b_s] in *.
    assert (POST : via s LPost (fun _ _ => BIdle) = Some (b', e) -> coupled b' /\ carried b' (log ++ e) /\ ((b_s b' = s /\ sevs e = []) \/ exists sl, s_step_fn s sl = Ok (b_s b') (sevs e))).
    { unfold via. destruct (s_step_fn s LPost) as [| |s' e'] eqn:E; try discriminate. intro HH. injection HH as <- <-. destruct (post_w _ _ _ E) as (-> & W1 & W2 & W3).
      split; [unfold coupled; cbn [b_pc b_s]; now rewrite W1, W2, W3|]. split; [|right; exists LPost; exact E]. eapply carried_quiet; [exact CA|discriminate|discriminate|reflexivity|reflexivity|reflexivity]. }
    destruct r; [exact (POST H)| |].
    + unfold via in H. destruct (s_step_fn s LWait) as [| |s' e'] eqn:E; try discriminate. injection H as <- <-. destruct (wait_w _ _ _ E) as (-> & W1 & W2 & W3).
      split; [unfold coupled; cbn [b_pc b_s]; now rewrite W1, W2, W3|]. split; [|right; exists LWait; exact E]. eapply carried_quiet; [exact CA|discriminate|discriminate|reflexivity|reflexivity|reflexivity].
    + destruct kind; [exact (POST H)|]. injection H as <- <-. split; [unfold coupled; cbn [b_pc b_s]; auto|]. split; [|left; auto]. eapply carried_quiet; [exact CA|discriminate|discriminate|reflexivity|reflexivity|reflexivity].
Qed.
End Wired.
