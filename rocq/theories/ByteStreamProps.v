(** C66: sending through a byte stream. *)
From Coq Require Import ZArith List Bool Lia Arith.
From Verif Require Import Base ConcBase SendStreamModel SendStreamSpec SendStreamBase SendStreamProofs SendStreamProofs2 SendStreamProofs3 SendStreamProofs4 SendStreamProps ByteStreamModel ByteStreamSpec ByteStreamProofs.
Import ListNotations.
Open Scope Z_scope.

(** *** Accounting: what a completion reports *)
Definition aitem := (mgroup * (list pkt * list (Z * Z)))%type.
Definition a_ok (x : aitem) : Prop :=
  let '(g, (R, W)) := x in
  (length W + length (mg_left g) + mg_out g = length R)%nat /\ mg_bytes g = total W /\ mg_err g = first_err W.
Fixpoint front (X : list aitem) : Prop :=
  match X with
  | [] => True
  | x :: X' => if sent (fst x) then front X' else Forall (fun y => snd (snd y) = []) X'
  end.
Definition aR (X : list aitem) := map (fun x => fst (snd x)) X.
Definition aW (X : list aitem) := concat (map (fun x => snd (snd x)) X).

Lemma total_snoc W n err : total (W ++ [(n, err)]) = (total W + n) mod 2 ^ 64.
Proof. unfold total. now rewrite fold_left_app. Qed.
Lemma first_err_snoc W n err : first_err (W ++ [(n, err)]) = if first_err W =? 0 then err else first_err W.
Proof. unfold first_err. now rewrite fold_left_app. Qed.
Lemma front_tail X : Forall (fun y => snd (snd y) = []) X -> front X.
Proof. induction 1 as [|x X Hx HX IH]; cbn [front]; [exact I|]. destruct (sent (fst x)); auto. Qed.
Lemma empties_concat (X : list aitem) : Forall (fun y => snd (snd y) = []) X -> aW X = [].
Proof. unfold aW. induction 1 as [|x X Hx HX IH]; [reflexivity|]. cbn [map concat]. now rewrite Hx, IH. Qed.

Lemma on_packet_acct p last : forall X gs', Forall a_ok X -> front X -> on_packet (map fst X) p last = Some gs' ->
  exists X', map fst X' = gs' /\ aR X' = aR X /\ map (fun x => snd (snd x)) X' = map (fun x => snd (snd x)) X /\ Forall a_ok X' /\ front X'.
Proof.
  induction X as [|[g [R W]] X IH]; intros gs' HO HF H; cbn [map fst on_packet] in H; [discriminate|]. inversion HO as [|? ? HO1 HO2]; subst. destruct (mg_left g) as [|x l] eqn:L.
  - destruct (on_packet (map fst X) p last) as [r|] eqn:E; [|discriminate]. injection H as <-. assert (HF' : front X).
    { cbn [front fst] in HF. destruct (sent g); [exact HF|now apply front_tail]. }
    destruct (IH r HO2 HF' eq_refl) as (X' & <- & E2 & E3 & E4 & E5). exists ((g, (R, W)) :: X'). unfold aR in *. cbn [map fst snd]. rewrite E2, E3. repeat split; auto.
    cbn [front fst] in HF |- *. destruct (sent g); [exact E5|]. clear - E3 HF. revert X' E3. induction HF as [|x X Hx HX IH]; intros [|x' X'] E; try discriminate E; constructor; injection E as E1 E2; [congruence|auto].
  - destruct (pkt_eqb x p && _); [|discriminate]. injection H as <-.
    eexists ((_, (R, W)) :: X). split; [reflexivity|]. split; [reflexivity|]. split; [reflexivity|]. split.
    + constructor; [|exact HO2]. unfold a_ok in *. cbn [mg_left mg_out mg_bytes mg_err]. rewrite L in HO1. cbn [length] in HO1. destruct HO1 as (A & B & C). repeat split; auto. lia.
    + cbn [front fst] in *. assert (N : sent g = false) by (unfold sent; now rewrite L). rewrite N in HF. unfold sent. cbn [mg_left mg_out]. destruct l; exact HF.
Qed.
Lemma on_written_acct n err last : forall X gs', Forall a_ok X -> front X -> on_written (map fst X) n err last = Some gs' ->
  exists X', map fst X' = gs' /\ aR X' = aR X /\ aW X' = aW X ++ [(n, err)] /\ Forall a_ok X' /\ front X'.
Proof.
  induction X as [|[g [R W]] X IH]; intros gs' HO HF H; cbn [map fst on_written] in H; [discriminate|]. inversion HO as [|? ? HO1 HO2]; subst. destruct (mg_out g) as [|k] eqn:L.
  - destruct (mg_left g) eqn:ML; [|discriminate]. destruct (on_written (map fst X) n err last) as [r|] eqn:E; [|discriminate]. injection H as <-.
    assert (S : sent g = true) by (unfold sent; now rewrite ML, L). cbn [front fst] in HF. rewrite S in HF.
    destruct (IH r HO2 HF eq_refl) as (X' & <- & E2 & E3 & E4 & E5). exists ((g, (R, W)) :: X'). unfold aR, aW in *. cbn [map fst snd concat]. rewrite E2, E3, app_assoc. repeat split; auto.
    cbn [front fst]. now rewrite S.
  - destruct (Bool.eqb last _); [|discriminate]. injection H as <-. assert (N : sent g = false) by (unfold sent; rewrite L; destruct (mg_left g); reflexivity). cbn [front fst] in HF. rewrite N in HF.
    eexists ((_, (R, W ++ [(n, err)])) :: X). split; [reflexivity|]. split; [reflexivity|]. split; [|split].
    + unfold aW. cbn [map snd concat]. fold (aW X). rewrite (empties_concat X HF), !app_nil_r. reflexivity.
    + constructor; [|exact HO2]. unfold a_ok in *. cbn [mg_left mg_out mg_bytes mg_err]. rewrite L in HO1. destruct HO1 as (A & B & C). rewrite app_length, total_snoc, first_err_snoc, B, C. cbn [length]. repeat split; auto. lia.
    + clear N. cbn [front fst]. match goal with |- if ?b then _ else _ => destruct b end; [now apply front_tail|exact HF].
Qed.

Lemma requests_app a b : requests (a ++ b) = requests a ++ requests b.
Proof. induction a as [|e a IH]; [reflexivity|]. destruct e; cbn [app requests]; rewrite ?IH; reflexivity. Qed.
Lemma dones_app a b : dones (a ++ b) = dones a ++ dones b.
Proof. apply flat_map_app. Qed.

(** The writes of an execution are those of the completed requests, in order,
    and then those of the others. *)
Definition acct (tr : list sev) (m : smon) : Prop := exists Rd Wd X,
  map fst X = sm_groups m /\ requests tr = Rd ++ aR X /\ writes tr = concat Wd ++ aW X /\
  Forall2 (fun R W => length W = length R) Rd Wd /\
  Forall2 (fun W d => snd (fst d) = first_err W /\ snd d = total W) Wd (dones tr) /\
  Forall a_ok X /\ front X.
Lemma acct_step nsub tr m e m' : acct tr m -> smon_step nsub m e = Some m' -> acct (tr ++ [e]) m'.
Proof.
  intros (Rd & Wd & X & E1 & E2 & E3 & E4 & E5 & E6 & E7) H. unfold acct. rewrite requests_app, writes_app, dones_app.
  assert (K : sm_groups m' = sm_groups m -> requests [e] = [] -> writes [e] = [] -> dones [e] = [] -> exists Rd0 Wd0 X0,
    map fst X0 = sm_groups m' /\ requests tr ++ requests [e] = Rd0 ++ aR X0 /\ writes tr ++ writes [e] = concat Wd0 ++ aW X0 /\
    Forall2 (fun R W => length W = length R) Rd0 Wd0 /\ Forall2 (fun W d => snd (fst d) = first_err W /\ snd d = total W) Wd0 (dones tr ++ dones [e]) /\ Forall a_ok X0 /\ front X0).
  { intros G -> -> ->. exists Rd, Wd, X. rewrite G, !app_nil_r. repeat split; auto. }
  destruct e; cbn [smon_step] in H.
  - clear K. destruct hs as [|h hs]; [discriminate|]. destruct (on_cnts _ _ _); [|discriminate]. destruct (forallb _ _); [|discriminate]. injection H as <-. cbn [sm_groups].
    set (L := group_order mode (map (fun h => heap_packets (fst h)) (h :: hs))). set (g := {| mg_id := id; mg_left := L; mg_out := 0; mg_bytes := 0; mg_err := 0 |}).
    exists Rd, Wd, (X ++ [(g, (map fst L, []))]). unfold aR, aW. rewrite !map_app, concat_app, E1, E2, E3. cbn [map fst snd concat app requests writes dones flat_map]. fold L. rewrite !app_nil_r.
    split; [reflexivity|]. split; [unfold aR; now rewrite <- app_assoc|]. split; [reflexivity|]. split; [exact E4|]. split; [exact E5|]. split.
    + apply Forall_app. split; [exact E6|]. constructor; [|constructor]. cbn [a_ok g mg_left mg_out mg_bytes mg_err length]. rewrite map_length. repeat split; lia.
    + clear - E7. induction X as [|x X IH]; cbn [app front] in *; [destruct (sent _); constructor|]. destruct (sent (fst x)); [auto|]. apply Forall_app. split; [exact E7|]. now constructor.
  - injection H as <-. apply K; reflexivity.
  - destruct (on_packet _ _ _) as [gs|] eqn:O; [|discriminate]. injection H as <-. cbn [sm_groups]. rewrite <- E1 in O. destruct (on_packet_acct _ _ _ _ E6 E7 O) as (X' & F1 & F2 & F3 & F4 & F5).
    exists Rd, Wd, X'. cbn [requests writes dones flat_map]. rewrite !app_nil_r, F2. unfold aW in *. rewrite F3. repeat split; auto.
  - destruct (on_written _ _ _ _) as [gs|] eqn:O; [|discriminate]. injection H as <-. cbn [sm_groups]. rewrite <- E1 in O. destruct (on_written_acct _ _ _ _ _ E6 E7 O) as (X' & F1 & F2 & F3 & F4 & F5).
    exists Rd, Wd, X'. cbn [requests writes dones flat_map app]. rewrite !app_nil_r, F2, F3, E3, app_assoc. repeat split; auto.
  - clear K. destruct (sm_groups m) as [|g gs] eqn:GM; [discriminate|]. destruct (sent g && (id =? mg_id g) && (err =? mg_err g) && (bytes =? mg_bytes g)) eqn:C; [|discriminate]. injection H as <-.
    destruct X as [|[g' [R W]] X]; [discriminate E1|]. cbn [map fst] in E1. injection E1 as -> E1. apply andb_prop in C as [C C4]. apply andb_prop in C as [C C3]. apply andb_prop in C as [C1 C2].
    apply Z.eqb_eq in C3, C4. destruct (sent_left _ C1) as [S1 S2]. inversion E6 as [|? ? A0 A4]; subst. cbn [a_ok] in A0. destruct A0 as (A1 & A2 & A3). cbn [sm_groups].
    exists (Rd ++ [R]), (Wd ++ [W]), X. unfold aR, aW in *. cbn [map fst snd concat requests writes dones flat_map app] in *. rewrite !app_nil_r, E2, E3, concat_app. cbn [concat]. rewrite app_nil_r, <- !app_assoc.
    split; [reflexivity|]. split; [reflexivity|]. split; [reflexivity|]. split; [apply Forall2_app; [exact E4|]; constructor; [rewrite S1, S2 in A1; cbn [length] in A1; lia|constructor]|].
    split; [apply Forall2_app; [exact E5|]; constructor; [cbn [fst snd]; auto|constructor]|]. split; [exact A4|]. cbn [front fst] in E7. now rewrite C1 in E7.
  - destruct (remove_first _ _); [|discriminate]. injection H as <-. apply K; reflexivity.
  - injection H as <-. apply K; reflexivity.
  - destruct (if waited then _ else _); [|discriminate]. injection H as <-. apply K; reflexivity.
  - injection H as <-. apply K; reflexivity.
Qed.
Lemma acct_run nsub tr m : smon_run nsub smon0 tr = Some m -> acct tr m.
Proof.
  revert m. induction tr as [|e tr IH] using rev_ind; intros m H.
  - injection H as <-. exists [], [], []. repeat split; constructor.
  - rewrite smon_run_app in H. destruct (smon_run nsub smon0 tr) as [m1|]; [|discriminate]. cbn [smon_run] in H. destruct (smon_step nsub m1 e) as [m2|] eqn:S; [|discriminate]. injection H as <-.
    eapply acct_step; eauto.
Qed.
Lemma cut_nth {A B} : forall (Rd : list (list A)) (Wd : list (list B)) Rg rest j, Forall2 (fun R W => length W = length R) Rd Wd -> (j < length Rd)%nat ->
  nth_error (cut (Rd ++ Rg) (concat Wd ++ rest)) j = nth_error Wd j.
Proof.
  induction Rd as [|R Rd IH]; intros Wd Rg rest j H L; [cbn in L; lia|]. inversion H as [|? W ? Wd' H1 H2]; subst. cbn [app cut concat]. rewrite <- app_assoc, <- H1.
  destruct j as [|j]; cbn [nth_error].
  - f_equal. rewrite <- (Nat.add_0_r (length W)), firstn_app_2. cbn [firstn]. now rewrite app_nil_r.
  - replace (skipn (length W) (W ++ concat Wd' ++ rest)) with (concat Wd' ++ rest) by (rewrite skipn_app, skipn_all, Nat.sub_diag; reflexivity). apply IH; [exact H2|cbn in L; lia].
Qed.
Lemma requests_to_send tr : concat (requests tr) = map fst (to_send tr).
Proof. induction tr as [|e tr IH]; [reflexivity|]. destruct e; cbn [requests to_send concat]; auto. now rewrite map_app, IH. Qed.

(** *** Executions *)
Section C66.
Variables (kind : bkind) (wire : pkt -> list Z * list (list Z)) (connecting : bool) (size nsub : Z) (n : nat).
Hypothesis Hsize : 1 <= size <= 2 ^ 63.
Let reach := b_reach kind wire connecting size nsub n.

Lemma binit_sinv : sinv (b_s (b_new connecting size nsub n)) smon0.
Proof.
  unfold b_new. cbn [b_s]. destruct connecting; [|now apply init_sinv]. destruct (init_sinv size nsub n Hsize) as (p & h & gF & gI & gM & gN & pend & [Q L T M K]).
  exists p, h, gF, gI, gM, gN, pend. destruct (stream_new size nsub n) as [] eqn:E. constructor; try assumption.
  cbn in *. destruct K as [K1 K2]. unfold stream_new in E. injection E as <- <- <- <- <- <- <- <- <- <- <- <- <- <-. cbn in *. constructor; [exact K1|discriminate].
Qed.

Lemma b_run_app : forall l1 b l2, b_run kind wire b (l1 ++ l2) =
  match b_run kind wire b l1 with None => None | Some (b1, e1) => match b_run kind wire b1 l2 with None => None | Some (b2, e2) => Some (b2, e1 ++ e2) end end.
Proof.
  induction l1 as [|x l1 IH]; intros b l2; cbn [app b_run]; [destruct (b_run kind wire b l2) as [[? ?]|]; reflexivity|]. destruct (b_step kind wire b x) as [[b1 e1]|]; [|reflexivity]. rewrite IH.
  destruct (b_run kind wire b1 l1) as [[b2 e2]|]; [|reflexivity]. destruct (b_run kind wire b2 l2) as [[b3 e3]|]; [|reflexivity]. now rewrite app_assoc.
Qed.
Lemma clean_app a b : clean (a ++ b) -> clean a /\ clean b.
Proof. intro H. split; intros id err k K; apply (H id err k); apply in_or_app; auto. Qed.
Lemma reach_inv b log : reach b log -> coupled b /\ carried wire b log /\
  (clean (sevs log) -> exists m, smon_run nsub smon0 (sevs log) = Some m /\ sinv (b_s b) m /\ s_nsub (b_s b) = nsub).
Proof.
  intros (ls & H). revert b log H. induction ls as [|l ls IH] using rev_ind; intros b log H.
  - injection H as <- <-. split; [|split].
    + unfold coupled, b_new. cbn. destruct connecting; cbn; auto.
    + unfold carried, b_new. cbn. split; [constructor|reflexivity].
    + intros _. exists smon0. split; [reflexivity|]. split; [apply binit_sinv|]. unfold b_new. destruct connecting; reflexivity.
  - rewrite b_run_app in H. destruct (b_run kind wire (b_new connecting size nsub n) ls) as [[b1 e1]|] eqn:E; [|discriminate]. cbn [b_run] in H.
    destruct (b_step kind wire b1 l) as [[b2 e2]|] eqn:S; [|discriminate]. injection H as <- <-. rewrite app_nil_r. destruct (IH _ _ eq_refl) as (I1 & I2 & I3).
    destruct (b_step_ok wire kind _ _ _ _ _ I1 I2 S) as (J1 & J2 & J3). split; [exact J1|]. split; [exact J2|]. rewrite sevs_app. intro C. apply clean_app in C as [Ca Cb].
    destruct (I3 Ca) as (m & M1 & M2 & M3). destruct J3 as [(J3 & J4)|(sl & J3)].
    + rewrite J4, app_nil_r. exists m. rewrite J3. auto.
    + pose proof (step_good (b_s b1) m sl M2) as G. rewrite J3 in G. cbn [good] in G. destruct (G Cb) as (m' & G1 & G2 & G3 & G4). exists m'. rewrite smon_run_app, M1. rewrite M3 in G1. split; [exact G1|]. split; [exact G2|congruence].
Qed.

(** What is on the wire: of each packet written the part that was written, in
    order, and part of the next packet handed over, if any.  A write that is
    reported without error was complete. *)
Theorem C66_wire b log : reach b log -> exists ps rest part,
  handed (sevs log) = ps ++ rest /\ Forall2 (write_ok wire) ps (writes (sevs log)) /\
  on_wire log = wired wire ps (writes (sevs log)) ++ part /\
  (rest = [] /\ part = [] \/ exists p more, rest = [p] /\ wbytes wire p = part ++ more).
Proof.
  intro R. destruct (reach_inv b log R) as (_ & C & _). unfold carried in C. destruct (b_pc b).
  3: { destruct C as (ps' & p & l1 & K1 & K2 & _ & K4 & _ & K6). exists ps', [p], l1. repeat split; auto. right. eauto. }
  all: destruct C as [C1 C2]; exists (handed (sevs log)), [], []; rewrite !app_nil_r; (split; [reflexivity|]); (split; [exact C1|]); (split; [exact C2|]); left; auto.
Qed.

(** Completions: in the order of acceptance, with the number of bytes written and
    the first error of the writes of that request. *)
Theorem C66_report_partial b log : reach b log -> clean (sevs log) -> forall j id err bytes, nth_error (dones (sevs log)) j = Some (id, err, bytes) ->
  exists ps ws, nth_error (requests (sevs log)) j = Some ps /\ nth_error (cut (requests (sevs log)) (writes (sevs log))) j = Some ws /\
    length ws = length ps /\ nth_error (accepted_ids (sevs log)) j = Some id /\ err = first_err ws /\ bytes = total ws.
Proof.
  intros R C j id err bytes H. destruct (reach_inv b log R) as (_ & _ & I). destruct (I C) as (m & M & _). pose proof (acct_run nsub _ _ M) as (Rd & Wd & X & E1 & E2 & E3 & E4 & E5 & _).
  pose proof (mon_order nsub _ _ _ M) as O. cbn [smon0 sm_groups map app] in O.
  assert (D : forall tr, done_ids tr = map (fun d => fst (fst d)) (dones tr)) by (intro tr; induction tr as [|e tr IH]; [reflexivity|]; destruct e; cbn [done_ids dones flat_map app map fst]; auto; now rewrite IH).
  assert (L1 : length Rd = length Wd) by (symmetry; clear - E4; induction E4; cbn; auto). assert (L2 : length Wd = length (dones (sevs log))) by (eapply Forall2_len; eauto).
  assert (Lj : (j < length (dones (sevs log)))%nat) by (apply nth_error_Some; congruence).
  destruct (nth_error Rd j) as [ps|] eqn:N1; [|apply nth_error_None in N1; lia]. destruct (nth_error Wd j) as [ws|] eqn:N2; [|apply nth_error_None in N2; lia].
  exists ps, ws. split; [rewrite E2, nth_error_app1 by lia; exact N1|]. split; [rewrite E2, E3, cut_nth by (auto; lia); exact N2|]. split.
  - clear - E4 N1 N2. revert j N1 N2. induction E4 as [|R W Rd Wd E _ IH]; intros [|j] N1 N2; try discriminate; cbn [nth_error] in *; [congruence|eauto].
  - split; [rewrite O, nth_error_app1 by (rewrite D, map_length; lia); rewrite D; rewrite nth_error_map, H; reflexivity|].
    clear - E5 N2 H. revert j N2 H. revert E5. generalize (dones (sevs log)). intros ds E5. induction E5 as [|W d Wd ds [E E'] _ IH]; intros [|j] N2 H; try discriminate; cbn [nth_error] in *; [|eauto].
    injection H as ->. injection N2 as ->. auto.
Qed.

Lemma first_err_zero ws : first_err ws = 0 -> Forall (fun w => snd w = 0) ws.
Proof.
  unfold first_err. revert ws. induction ws as [|w ws IH] using rev_ind; intro H; [constructor|]. rewrite fold_left_app in H. cbn [fold_left] in H.
  destruct (Z.eqb_spec (fold_left (fun e w => if e =? 0 then snd w else e) ws 0) 0) as [E|E]; [|congruence]. apply Forall_app. split; [auto|]. now constructor.
Qed.
Lemma cut_aligned {A B} (P : A -> B -> Prop) : forall (Rs : list (list A)) (ws : list B) ps rest ps' j R W, concat Rs = ps ++ rest -> Forall2 P ps' ws -> (exists more, ps = ps' ++ more) ->
  nth_error Rs j = Some R -> nth_error (cut Rs ws) j = Some W -> length W = length R -> Forall2 P R W.
Proof.
  induction Rs as [|R0 Rs IH]; intros ws ps rest ps' j R W E F (more & M) HR HW L; [destruct j; discriminate|]. subst ps. rewrite <- app_assoc in E. set (tl := more ++ rest) in *. clearbody tl. clear more rest.
  cbn [cut] in HW. cbn [concat] in E. destruct j as [|j]; cbn [nth_error] in *.
  - injection HR as ->. injection HW as <-. clear - E F L. revert ps' ws E F L. induction R as [|x R IH]; intros ps' ws E F L; [constructor|]. destruct F as [|p w ps' ws Pw F]; [discriminate L|].
    cbn [app] in E. injection E as -> E. cbn [length firstn] in *. constructor; [exact Pw|]. injection L as L. eapply IH; eauto.
  - destruct (le_lt_dec (length R0) (length ps')) as [LE|LT].
    + rewrite <- (firstn_skipn (length R0) ps') in E. assert (E' : R0 = firstn (length R0) ps' /\ concat Rs = skipn (length R0) ps' ++ tl).
      { rewrite <- app_assoc in E. clear - E LE. assert (LL : length R0 = length (firstn (length R0) ps')) by (rewrite firstn_length; lia). revert E LL. generalize (firstn (length R0) ps') (skipn (length R0) ps' ++ tl). clear.
        intros a b. revert a. induction R0 as [|x R0 IH]; intros [|y a] E L; try discriminate L; cbn [app] in E; [auto|]. injection E as -> E. injection L as L. destruct (IH a E L) as [-> ->]. auto. }
      destruct E' as [_ E']. eapply (IH (skipn (length R0) ws) (skipn (length R0) ps') tl (skipn (length R0) ps') j); eauto; [|exists []; now rewrite app_nil_r].
      clear - F LE. revert R0 LE. induction F as [|p w ps ws Pw F IH]; intros [|x R0] LE; cbn [length skipn] in *; auto; try (apply IH; lia).
    + assert (Lw : length ws = length ps') by (symmetry; eapply Forall2_len; eauto). rewrite skipn_all2 in HW by lia. assert (W = []).
      { clear - HW. revert j HW. induction Rs as [|R1 Rs IH]; intros [|j] HW; cbn [cut nth_error] in HW; try discriminate; [injection HW as <-; apply firstn_nil|]. rewrite skipn_nil in HW. eauto. }
      subst W. destruct R; [constructor|discriminate L].
Qed.

(** A request that is reported without error is on the wire, whole and in order,
    and the number of bytes reported is its size. *)
Theorem C66_success_partial b log : reach b log -> clean (sevs log) -> forall j id bytes, nth_error (dones (sevs log)) j = Some (id, 0, bytes) ->
  exists ps before after, nth_error (requests (sevs log)) j = Some ps /\
    on_wire log = before ++ concat (map (wbytes wire) ps) ++ after /\ bytes = zlen (concat (map (wbytes wire) ps)) mod 2 ^ 64.
Proof.
  intros R C j id bytes H. destruct (C66_report_partial b log R C _ _ _ _ H) as (ps & ws & N1 & N2 & L & _ & E0 & Eb). symmetry in E0. apply first_err_zero in E0.
  destruct (C66_wire b log R) as (pw & rest & part & W1 & W2 & W3 & _). destruct (reach_inv b log R) as (_ & _ & I). destruct (I C) as (m & M & _).
  destruct (mon_packets nsub _ _ _ M) as [P _]. cbn [smon0 sm_groups left_of flat_map app] in P. apply (f_equal (map fst)) in P. rewrite map_app, to_send_marked_fst, packets_marked_fst in P.
  apply (f_equal (map fst)) in P. rewrite map_app in P. fold (handed (sevs log)) in P. rewrite <- requests_to_send, W1, <- app_assoc in P.
  set (tl := rest ++ map fst (map fst (left_of (sm_groups m)))) in P. clearbody tl.
  assert (A : Forall2 (write_ok wire) ps ws) by (eapply (cut_aligned (write_ok wire) _ _ pw tl pw j); eauto; exists []; now rewrite app_nil_r).
  assert (F : Forall2 (fun p w => fst w = zlen (wbytes wire p)) ps ws).
  { clear - A E0. induction A as [|p w ps ws [_ Pw] A IH]; [constructor|]. inversion E0; subst. constructor; auto. }
  assert (T : bytes = zlen (concat (map (wbytes wire) ps)) mod 2 ^ 64).
  { rewrite Eb. unfold total. clear - F. assert (G : forall acc, fold_left (fun b w => (b + fst w) mod 2 ^ 64) ws (acc mod 2 ^ 64) = (acc + zlen (concat (map (wbytes wire) ps))) mod 2 ^ 64).
    { induction F as [|p w ps ws Pw F IH]; intro acc; cbn [fold_left map concat]; [now rewrite Z.add_0_r|]. rewrite Zplus_mod_idemp_l, IH, Pw. f_equal. unfold zlen. rewrite app_length. lia. }
    exact (G 0). }
  assert (Wr : exists before after, wired wire pw (writes (sevs log)) = before ++ concat (map (wbytes wire) ps) ++ after).
  { clear - P W2 N1 N2 F L. revert pw P W2 j N1 N2. generalize (writes (sevs log)) as w0. generalize (requests (sevs log)) as Rs. induction Rs as [|R0 Rs IH]; intros w0 pw P W2 j N1 N2; [destruct j; discriminate|].
    cbn [cut] in N2. cbn [concat] in P. destruct j as [|j]; cbn [nth_error] in *.
    - injection N1 as ->. injection N2 as <-. exists []. cbn [app]. clear IH. revert pw w0 P W2 F L. induction ps as [|p ps IH]; intros pw w0 P W2 F L; [eexists; reflexivity|].
      destruct W2 as [|p' w pw w0 _ W2]; [discriminate L|]. cbn [app] in P. injection P as -> P. cbn [firstn length] in *. inversion F as [|? ? ? ? F1 F2]; subst. injection L as L.
      destruct (IH pw w0 P W2 F2 L) as (after & E). exists after. unfold wired in *. cbn [combine map concat fst snd]. rewrite E, F1. unfold zlen at 1. rewrite Nat2Z.id, firstn_all, <- app_assoc. reflexivity.
    - destruct (le_lt_dec (length R0) (length pw)) as [LE|LT].
      + destruct (IH (skipn (length R0) w0) (skipn (length R0) pw)) with (3 := N1) (4 := N2) as (before & after & E).
        * clear - P LE. revert pw P LE. induction R0 as [|x R0 IH]; intros [|y pw] P LE; cbn [length skipn app] in *; auto; try lia. injection P as -> P. apply IH; [exact P|lia].
        * clear - W2 LE. revert R0 LE. induction W2 as [|p w ps ws Pw F IH]; intros [|x R0] LE; cbn [length skipn] in *; auto; try (apply IH; lia).
        * exists (wired wire (firstn (length R0) pw) (firstn (length R0) w0) ++ before), after. rewrite <- app_assoc, <- E. unfold wired. rewrite <- concat_app, <- map_app. f_equal. f_equal.
          clear. generalize (length R0). intro k. revert pw w0. induction k as [|k IH]; intros [|p pw] [|w w0]; cbn [firstn skipn combine app]; auto; [|now rewrite IH]. destruct (skipn k pw); reflexivity.
      + assert (Lw : length w0 = length pw) by (symmetry; eapply Forall2_len; eauto). rewrite skipn_all2 in N2 by lia. assert (ws = []).
        { clear - N2. revert j N2. induction Rs as [|R1 Rs IH]; intros [|j] HW; cbn [cut nth_error] in HW; try discriminate; [injection HW as <-; apply firstn_nil|]. rewrite skipn_nil in HW. eauto. }
        subst ws. destruct ps; [|discriminate L]. exists (wired wire pw w0), []. cbn [map concat app]. now rewrite app_nil_r. }
  destruct Wr as (before & after & Wr). exists ps, before, (after ++ part). split; [exact N1|]. split; [|exact T]. rewrite W3, Wr, <- !app_assoc. reflexivity.
Qed.

(** If no write fails, the wire carries the concatenation of the packets of the
    accepted requests, in order, as far as the writer has got. *)
Theorem C66_stream_partial b log : reach b log -> clean (sevs log) -> Forall (fun w => snd w = 0) (writes (sevs log)) ->
  exists more, concat (map (wbytes wire) (map fst (to_send (sevs log)))) = on_wire log ++ more /\
    (b_pc b = BIdle -> s_need (b_s b) = true -> more = []).
Proof.
  intros R C F. destruct (C66_wire b log R) as (pw & rest & part & W1 & W2 & W3 & W4). destruct (reach_inv b log R) as (I1 & I2 & I). destruct (I C) as (m & M & S & _).
  destruct (mon_packets nsub _ _ _ M) as [P P2]. cbn [smon0 sm_groups left_of flat_map app outs sumw] in P, P2. apply (f_equal (map fst)) in P. rewrite map_app, to_send_marked_fst, packets_marked_fst in P.
  assert (Wr : wired wire pw (writes (sevs log)) = concat (map (wbytes wire) pw)).
  { clear - F W2. unfold wired. induction W2 as [|p w pw ws [_ Pw] W2 IH]; [reflexivity|]. inversion F as [|? ? F1 F2]; subst. cbn [combine map concat fst snd]. rewrite IH by assumption. rewrite (Pw F1). unfold zlen. now rewrite Nat2Z.id, firstn_all. }
  assert (T : map fst (to_send (sevs log)) = pw ++ rest ++ map fst (map fst (left_of (sm_groups m)))) by (rewrite P, map_app; fold (handed (sevs log)); rewrite W1, <- app_assoc; reflexivity).
  assert (X : exists more, concat (map (wbytes wire) (map fst (to_send (sevs log)))) = on_wire log ++ more).
  { rewrite T, W3, Wr, !map_app, !concat_app. destruct W4 as [[-> ->]|(p & mo & -> & E)].
    - exists (concat (map (wbytes wire) (map fst (map fst (left_of (sm_groups m)))))). now rewrite app_nil_r.
    - cbn [map concat]. rewrite app_nil_r, E. eexists. rewrite <- !app_assoc. reflexivity. }
  destruct X as (more & X). exists more. split; [exact X|]. intros Hi Hn. destruct S as (p & h & gF & gI & gM & gN & pend & [Q L0 T0 Mi [K1 K2]]). specialize (K2 Hn).
  unfold coupled in I1. rewrite Hi in I1. destruct I1 as (I1 & _). destruct Mi as [M1 _ _ _ _]. rewrite K2, I1 in M1. cbn [pc_hs map app] in M1. rewrite M1 in T. cbn [left_of flat_map map] in T.
  unfold carried in I2. rewrite Hi in I2. destruct I2 as [I2a I2b]. rewrite T, app_nil_r in X.
  assert (LR : rest = []).
  { destruct W4 as [[W4 _]|(q & mo & W4 & _)]; [exact W4|]. apply Forall2_len in I2a. apply Forall2_len in W2. rewrite W1, app_length in I2a. rewrite W4 in I2a. cbn [length] in I2a. lia. }
  rewrite LR, app_nil_r in *. destruct W4 as [[_ ->]|(q & mo & W4 & _)]; [|discriminate]. rewrite W3, Wr, app_nil_r in X. symmetry in X. rewrite <- (app_nil_r (concat (map (wbytes wire) pw))) in X at 2. now apply app_inv_head in X.
Qed.

(** No undefined behaviour, and the writer never gets stuck: while it is running
    it can make a step whatever the transport does, except that request_wakeup
    may have to wait for a user thread to release the queue's lock. *)
Theorem C66_progress_partial b log : reach b log -> clean (sevs log) -> b_pc b <> BIdle ->
  (forall k err, match b_pc b with
                 | BBuf _ _ bufs _ _ => match kind with Streambuf => (k <= length (hd [] bufs))%nat | Tcp => (k <= length (concat bufs))%nat /\ (k = length (concat bufs) \/ err <> 0) end
                 | _ => True
                 end -> exists l b' e, b_step kind wire b l = Some (b', e) /\ match b_pc b with BBuf _ _ _ _ _ => l = BPut k err | _ => True end) \/
  (b_pc b = BFinal REmpty /\ s_lock (b_s b) <> None).
Proof.
  intros R C N. destruct (reach_inv b log R) as (I1 & I2 & I). destruct (I C) as (m & M & SI & _). assert (G : forall l, s_step_fn (b_s b) l <> Fault) by (intros l E; pose proof (step_good (b_s b) m l SI) as G; now rewrite E in G).
  destruct b as [s pc]. cbn [b_s b_pc] in *. destruct pc as [|i g|i g bufs acc last|r g|r|r]; [congruence| | | | |].
  - left. intros k err _. exists (BGet true). cbn. eauto.
  - left. intros k err Hk. exists (BPut k err). unfold carried in I2. cbn [b_pc] in I2. destruct I2 as (_ & _ & _ & _ & _ & NE & _). destruct bufs as [|buf bufs]; [congruence|].
    destruct I1 as (J1 & (q & J2) & J3). cbn [b_s] in *.
    assert (EP : forall i' a e', exists b' ev, end_packet kind s i' g a e' last = Some (b', ev)).
    { intros i' a e'. unfold end_packet, via. destruct (s_step_fn s (LWritten a e')) as [| |s' ev] eqn:E; [|exfalso; exact (G _ E)|eauto]. cbn [s_step_fn] in E. rewrite J1, J2 in E. destruct (get_queue _ _ q); discriminate. }
    unfold b_step. cbn [b_s b_pc]. destruct kind eqn:Ek.
    + cbn [hd] in Hk. destruct (Nat.ltb_spec (length buf) k); [lia|]. destruct (Nat.ltb k (length buf)).
      * destruct (EP i (acc + Z.of_nat k) err_eof) as (b' & ev & ->). eauto.
      * destruct bufs; [|eauto]. destruct (EP i (acc + Z.of_nat k) 0) as (b' & ev & ->). eauto.
    + destruct Hk as [Hk1 Hk2]. destruct (Nat.ltb_spec (length (concat (buf :: bufs))) k); [lia|]. cbn [orb]. destruct (Nat.ltb_spec k (length (concat (buf :: bufs)))); cbn [andb].
      * destruct (Z.eqb_spec err 0); [destruct Hk2; [lia|congruence]|]. destruct (EP i (acc + Z.of_nat k) err) as (b' & ev & ->). eauto.
      * destruct (EP i (acc + Z.of_nat k) err) as (b' & ev & ->). eauto.
  - left. intros k err _. exists BGroups. destruct I1 as (J1 & J2 & J3 & _). cbn [b_s b_pc] in *. unfold b_step. cbn [b_s b_pc]. destruct g as [|g]; [eauto|].
    unfold via. destruct (s_step_fn s (LComplete (S g))) as [| |s' ev] eqn:E; [|exfalso; exact (G _ E)|eauto]. cbn [s_step_fn] in E. rewrite J1, J3, Nat.leb_refl in E. cbn [Nat.ltb Nat.leb andb] in E.
    unfold batch_step in E. cbv zeta in E. destruct (vacate _ _ _ _ _ _) as [[[[? ?] ?] ?]|]; discriminate.
  - left. intros k err _. exists BNext. destruct I1 as ((k' & hs & ws & J1) & _). cbn [b_s b_pc] in *. unfold b_step. cbn [b_s b_pc]. unfold via.
    destruct (s_step_fn s LNext) as [| |s' ev] eqn:E; [|exfalso; exact (G _ E)|eauto]. cbn [s_step_fn] in E. unfold complete_step in E. rewrite J1 in E.
    destruct hs as [|[[? ?] ?] hs]; [|destruct k'; discriminate]. destruct ws as [|t ws].
    + destruct k'; [discriminate|]. unfold batch_step in E. cbv zeta in E. destruct (vacate _ _ _ _ _ _) as [[[[? ?] ?] ?]|]; discriminate.
    + destruct k'; (destruct (nth_error (s_threads s) t); discriminate).
  - destruct I1 as (J1 & J2 & J3 & J4). cbn [b_s b_pc] in *.
    assert (POST : exists b' e, via s LPost (fun _ _ => BIdle) = Some (b', e)) by (unfold via; cbn [s_step_fn]; rewrite J1; eauto).
    destruct r.
    + left. intros k err _. destruct POST as (b' & e & E). exists BDone, b', e. unfold b_step. cbn [b_s b_pc]. auto.
    + destruct (s_lock s) eqn:Lk; [right; split; [reflexivity|discriminate]|left]. intros k err _. exists BDone. unfold b_step. cbn [b_s b_pc]. unfold via. cbn [s_step_fn]. rewrite J1, Lk, J2, J3, (J4 eq_refl).
      destruct (s_tail s =? _); eauto.
    + left. intros k err _. destruct POST as (b' & e & E). exists BDone. unfold b_step. cbn [b_s b_pc]. destruct kind; eauto.
Qed.
End C66.
Print Assumptions C66_wire.
Print Assumptions C66_report_partial.
Print Assumptions C66_success_partial.
Print Assumptions C66_stream_partial.
Print Assumptions C66_progress_partial.
