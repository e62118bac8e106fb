(** Invariant of the ibverbs receiver. *)
From Coq Require Import ZArith List Bool Arith Lia Permutation.
From Verif Require InprocProofs.
From Verif Require Import Base ConcBase CodecModel RecvPacketModel RecvPacketProps LiveHeapModel LiveHeapSpec LiveHeapProofs StreamModel StreamSpec StreamProofs StreamInvProofs StreamRunProofs StreamProps RawModel RawSpec RawProps ReadersModel ReadersSpec ReadersProofs ReadersProps IbvRecvModel IbvRecvSpec.
Import ListNotations.
Open Scope nat_scope.

Section Inv.
Context (sc : sconfig) (c : config) (Cf : config_ok sc).
Notation next := (next sc c).
Notation reach := (reach sc c).

(** The packets in a frame *)
Definition pk (f : list Z) : list rpkt := flat_map (whole (max_size c)) (parsed Ethernet (Frame f (zlen f))).
Lemma slice_all (f : list Z) : slice f 0 (zlen f) = f.
Proof. apply slice_full. Qed.
Lemma frame_parsed f : bytes_ok f -> frame_ds f (parsed Ethernet (Frame f (zlen f))).
Proof. intro B. now apply entry_parse. Qed.
Lemma parsed_bytes f : bytes_ok f -> Forall bytes_ok (parsed Ethernet (Frame f (zlen f))).
Proof. intro B. cbn [parsed]. destruct (_ <? _)%Z; [constructor|]. destruct (udp_from _ _); try constructor; [|constructor]. now apply bytes_ok_slice, bytes_ok_slice. Qed.
Lemma pk_decoded fs : Forall bytes_ok fs -> Forall decoded (flat_map pk fs).
Proof.
  intro B. apply Forall_forall. intros p Hp. apply in_flat_map in Hp as (f & Hf & Hp). unfold pk in Hp. apply in_flat_map in Hp as (d & Hd & Hp). rewrite Forall_forall in B. pose proof (parsed_bytes f (B f Hf)) as PB. rewrite Forall_forall in PB. pose proof (whole_decoded (max_size c) d (PB d Hd)) as W. rewrite Forall_forall in W. auto.
Qed.
Lemma pk_concat fs : flat_map pk fs = flat_map (whole (max_size c)) (concat (map (fun f => parsed Ethernet (Frame f (zlen f))) fs)).
Proof. induction fs as [|f fs IH]; [reflexivity|]. cbn [flat_map map concat]. now rewrite flat_map_app, IH. Qed.
Lemma means_frames fs : Forall bytes_ok fs -> means (max_size c) (Handled fs) (Batch (flat_map pk fs) false).
Proof.
  intro B. rewrite pk_concat. constructor.
  - induction B as [|f fs Bf _ IH]; cbn [map]; constructor; [now apply frame_parsed|exact IH].
  - apply Forall_forall. intros ds Hd. apply in_map_iff in Hd as (f & <- & Hf). rewrite Forall_forall in B. apply parsed_bytes. auto.
Qed.
Lemma frame_fed f x : bytes_ok f -> is_stopped x = false -> do_frame sc c f x = with_flag (feed sc x (pk f)).
Proof.
  intros B N. unfold do_frame, pk. cbn [parsed]. rewrite Z.ltb_irrefl, slice_all. pose proof (proj1 (C39_parse Ethernet f B)) as NF. destruct (udp_from Ethernet f) as [|e|b]; [congruence| |].
  - cbn [flat_map]. rewrite feed_nil. cbn [with_flag option_map]. now rewrite N.
  - cbn [flat_map]. rewrite app_nil_r. apply process_feed; [now apply bytes_ok_slice|exact N].
Qed.

(** *** The invariant *)
Definition wcs_of (p : pc) : list comp := match p with Proc _ _ wcs _ => wcs | _ => [] end.
Definition chain_of (p : pc) : list nat := match p with Proc _ _ _ chain => chain | _ => [] end.
Definition pending (s : state) : list comp := wcs_of (at_ s) ++ cq s.
Definition frame_at (m : list (list Z)) (w : comp) : list Z := slice (nth (c_slot w) m []) 0 (c_len w).
Definition inside (p : pc) : bool := match p with Iter _ _ | Poll _ _ | Proc _ _ _ _ => true | _ => false end.
Definition is_gone (p : pc) : bool := match p with Gone => true | _ => false end.
(** After notification was asked for *)
Definition notified (p : pc) : bool := match p with Waiting => true | Iter _ n | Poll _ n | Proc _ n _ _ => negb n | _ => false end.
(** ... and the last poll was done *)
Definition polled (p : pc) : bool := match p with Waiting => true | Iter _ n | Proc _ n _ _ => negb n | _ => false end.
Record inv (s : state) : Prop := {
  i_slots : exists leak, Permutation (rq s ++ chain_of (at_ s) ++ map c_slot (pending s) ++ leak) (seq 0 (n_slots c)) /\ (is_gone (at_ s) = false -> leak = []);
  i_mem : length (mem s) = n_slots c;
  i_frames : exists lost, taken s = all_frames (log s) ++ cur s ++ lost ++ map (frame_at (mem s)) (filter c_ok (pending s)) /\ (is_gone (at_ s) = false -> lost = []);
  i_bytes : Forall bytes_ok (taken s);
  i_event : notified (at_ s) = true -> armed s || event s = true;
  i_polled : polled (at_ s) = true -> cq s <> [] -> event s = true;
  i_run : exists ops, Forall2 (means (max_size c)) (log s) ops /\ Forall op_decoded ops /\ run sc (stream_new sc) ops = Some (str s, rs s);
  i_gone : is_gone (at_ s) = true -> st_stopped (str s) = true;
  i_out : inside (at_ s) = false -> cur s = [];
  i_in : inside (at_ s) = true -> st_stopped (str s) = false /\ feed sc (no_work (str s)) (flat_map pk (cur s)) = Some (wk s) /\ is_stopped (wk s) = false
}.

Lemma slots_nodup s : inv s -> NoDup (rq s ++ chain_of (at_ s) ++ map c_slot (pending s)) /\ Forall (fun k => k < n_slots c) (rq s ++ chain_of (at_ s) ++ map c_slot (pending s)) /\
  length (rq s) + length (chain_of (at_ s)) + length (pending s) <= n_slots c.
Proof.
  intros [(leak & P & _)]. set (l := rq s ++ chain_of (at_ s) ++ map c_slot (pending s)). replace (rq s ++ chain_of (at_ s) ++ map c_slot (pending s) ++ leak) with (l ++ leak) in P by (unfold l; now rewrite <- !app_assoc).
  assert (ND : NoDup (l ++ leak)) by (eapply Permutation_NoDup; [symmetry; exact P|apply seq_NoDup]). split; [|split].
  - clear - ND. induction l as [|x l IH]; [constructor|]. cbn [app] in ND. inversion ND as [|? ? N1 N2]; subst. constructor; [intro K; apply N1, in_or_app; now left|auto].
  - apply Forall_forall. intros k Hk. assert (K : In k (seq 0 (n_slots c))) by (eapply Permutation_in; [exact P|apply in_or_app; now left]). apply in_seq in K. lia.
  - apply Permutation_length in P. rewrite seq_length, app_length in P. unfold l in P. rewrite !app_length, map_length in P. lia.
Qed.

Lemma inv_init : inv (init sc c).
Proof.
  constructor; cbn [init at_ rq cq mem armed event str wk rs taken cur log chain_of pending wcs_of is_gone notified polled inside app map filter all_frames flat_map]; try discriminate; trivial.
  - exists []. split; [rewrite app_nil_r; apply Permutation_refl|reflexivity].
  - apply repeat_length.
  - exists []. split; reflexivity.
  - exists []. split; [constructor|split; [constructor|reflexivity]].
Qed.


(** *** The card *)
Lemma frame_other m k f w : c_slot w <> k -> frame_at (upd m k f) w = frame_at m w.
Proof. intro N. unfold frame_at. f_equal. rewrite <- !nth_default_eq. unfold nth_default. now rewrite upd_other. Qed.
Lemma frames_write (l : list comp) k f m : ~ In k (map c_slot l) -> map (frame_at (upd m k f)) (filter c_ok l) = map (frame_at m) (filter c_ok l).
Proof. intro N. apply map_ext_in. intros w Hw. apply filter_In in Hw as (Hw & _). apply frame_other. intro E. apply N. rewrite <- E. now apply in_map. Qed.
Lemma frame_written m k f rest ok : k < length m -> frame_at (upd m k (f ++ rest)) {| c_slot := k; c_ok := ok; c_len := zlen f |} = f.
Proof.
  intro L. unfold frame_at. cbn [c_slot c_len]. rewrite <- nth_default_eq. unfold nth_default. rewrite upd_same by exact L. unfold slice. change (Z.to_nat 0) with 0. rewrite skipn_O. unfold zlen. rewrite Nat2Z.id, firstn_app, firstn_all, Nat.sub_diag. cbn [firstn]. apply app_nil_r.
Qed.
Lemma complete_ok s k rq' ok len f : inv s -> rq s = k :: rq' -> match f with Some f => ok = true /\ len = zlen f /\ bytes_ok f | None => ok = false end ->
  exists s', complete c k ok len rq' f s = Ok s' /\ inv s'.
Proof.
  intros I E Hf. destruct (slots_nodup s I) as (ND & BD & LN). rewrite E in ND, BD, LN. cbn [app] in ND, BD. inversion ND as [|? ? NI _]; subst. inversion BD as [|? ? KN _]; subst. cbn [length] in LN.
  unfold complete. assert (LC : length (cq s) < n_slots c) by (unfold pending in LN; rewrite app_length in LN; lia). apply Nat.ltb_lt in LC. rewrite LC. eexists. split; [reflexivity|].
  destruct I as [(leak & P & PL) IM (lost & T & TL) IB IE IP IR IG IO II]. assert (NP : ~ In k (map c_slot (pending s))) by (intro K; apply NI, in_or_app; right; apply in_or_app; now right).
  constructor; cbn [at_ rq cq mem armed event str wk rs taken cur log]; auto.
  - exists leak. split; [|exact PL]. unfold pending in *. cbn [at_ cq]. rewrite E in P. rewrite <- P, !map_app. cbn [map c_slot app]. rewrite <- !app_assoc. cbn [app]. symmetry.
    transitivity (rq' ++ k :: chain_of (at_ s) ++ map c_slot (wcs_of (at_ s)) ++ map c_slot (cq s) ++ leak); [apply Permutation_middle|]. apply Permutation_app_head.
    transitivity (chain_of (at_ s) ++ k :: map c_slot (wcs_of (at_ s)) ++ map c_slot (cq s) ++ leak); [apply Permutation_middle|]. apply Permutation_app_head.
    transitivity (map c_slot (wcs_of (at_ s)) ++ k :: map c_slot (cq s) ++ leak); [apply Permutation_middle|]. apply Permutation_app_head. apply Permutation_middle.
  - destruct f as [f|]; [|exact IM]. now rewrite upd_length.
  - exists lost. split; [|exact TL]. unfold pending in *. cbn [at_ cq]. destruct f as [f|].
    + destruct Hf as (-> & -> & _). rewrite (app_assoc (wcs_of _)), (filter_app c_ok (_ ++ _)), map_app. cbn [filter c_ok map]. rewrite frames_write by exact NP. rewrite frame_written by (rewrite IM; exact KN). rewrite T, <- !app_assoc. reflexivity.
    + rewrite Hf, (app_assoc (wcs_of _)), (filter_app c_ok (_ ++ _)), map_app. cbn [filter c_ok map]. rewrite app_nil_r. exact T.
  - destruct f as [f|]; [|exact IB]. apply Forall_app. split; [exact IB|]. constructor; [tauto|constructor].
  - intro N. cbn [orb]. rewrite orb_comm. now apply IE.
  - intros N _. assert (N' : notified (at_ s) = true) by (destruct (at_ s); cbn in *; auto; discriminate). rewrite orb_comm. now apply IE.
Qed.

(** *** Handlers *)
Lemma run_reachable s : inv s -> reachable sc (str s) (rs s).
Proof. intros [_ _ _ _ _ _ (ops & _ & D & R)]. now apply (reachable_run sc ops). Qed.
Lemma fed_ok st r ps : reachable sc st r -> Forall decoded ps -> st_stopped st = false ->
  exists x st' rs', feed sc (no_work st) ps = Some x /\ batch_end sc (k_s x) (k_b x) = Some st' /\ do_batch sc st ps false = Some (st', rs') /\ rs' = k_rs x /\ st_stopped st' = is_stopped x.
Proof.
  intros R D N. destruct R as (_ & ops & Do & Ro). destruct (step_some sc ops st r (Batch ps false) Cf Do D Ro) as (st' & rs' & S). cbn [step] in S. pose proof (end_batch sc st r ps false (reachable_run sc ops st r Cf Do Ro) D N) as B. rewrite S in B. unfold no_work.
  destruct (feed sc _ ps) as [x|]; [|discriminate]. cbn [finish] in B. destruct (batch_end sc (k_s x) (k_b x)) as [s2|] eqn:E; [|discriminate]. injection B as -> <- F. exists x, st', (k_rs x). repeat split; auto. destruct (st_stopped st'), (is_stopped x); cbn in F; congruence.
Qed.
Lemma leave_ok need s leak lost : Permutation (rq s ++ map c_slot (cq s) ++ leak) (seq 0 (n_slots c)) -> (is_stopped (wk s) = false -> leak = []) -> length (mem s) = n_slots c ->
  taken s = all_frames (log s) ++ cur s ++ lost ++ map (frame_at (mem s)) (filter c_ok (cq s)) -> (is_stopped (wk s) = false -> lost = []) -> Forall bytes_ok (taken s) ->
  (need = false -> armed s || event s = true /\ (cq s <> [] -> event s = true)) ->
  (exists ops, Forall2 (means (max_size c)) (log s) ops /\ Forall op_decoded ops /\ run sc (stream_new sc) ops = Some (str s, rs s)) ->
  st_stopped (str s) = false -> feed sc (no_work (str s)) (flat_map pk (cur s)) = Some (wk s) ->
  exists s', leave sc c need s = Ok s' /\ inv s'.
Proof.
  intros P PL IM T TL IB IE (ops & M & D & R) N F. assert (BC : Forall bytes_ok (cur s)) by (rewrite T in IB; apply Forall_app in IB as (_ & IB); apply Forall_app in IB; tauto).
  pose proof (pk_decoded _ BC) as Dc. pose proof (reachable_run sc ops _ _ Cf D R) as Re. destruct (fed_ok _ _ _ Re Dc N) as (x & st' & rs' & F' & E & S & -> & X). rewrite F in F'. injection F' as <-. unfold leave. rewrite E. eexists. split; [reflexivity|].
  assert (Z : forall b, wcs_of (if is_stopped (wk s) then Gone else if b : bool then Waiting else Queued) = [] /\ chain_of (if is_stopped (wk s) then Gone else if b then Waiting else Queued) = [] /\
     inside (if is_stopped (wk s) then Gone else if b then Waiting else Queued) = false /\ is_gone (if is_stopped (wk s) then Gone else if b then Waiting else Queued) = is_stopped (wk s)) by (intros [|]; destruct (is_stopped _); auto).
  destruct (Z (channel c && negb need)) as (Z1 & Z2 & Z3 & Z4). constructor; unfold pending; cbn [at_ rq cq mem armed event str wk rs taken cur log]; rewrite ?Z1, ?Z2, ?Z3, ?Z4; cbn [app]; auto.
  - exists leak. auto.
  - exists lost. split; [|exact TL]. unfold all_frames. rewrite flat_map_app. cbn [flat_map frames_of]. rewrite app_nil_r, <- app_assoc. exact T.
  - intro K. destruct (is_stopped _); [discriminate|]. destruct (channel c); [|discriminate]. destruct need; [discriminate|]. now apply IE.
  - intros K C. destruct (is_stopped _); [discriminate|]. destruct (channel c); [|discriminate]. destruct need; [discriminate|]. now apply IE.
  - exists (ops ++ [Batch (flat_map pk (cur s)) false]). split; [|split].
    + apply Forall2_app; [exact M|]. constructor; [now apply means_frames|constructor].
    + apply Forall_app. split; [exact D|]. constructor; [exact Dc|constructor].
    + rewrite InprocProofs.run_snoc, R. cbn [step]. now rewrite S.
  - now rewrite X.
  - discriminate.
Qed.
Lemma inv_same_pc s p : inv s -> wcs_of p = wcs_of (at_ s) -> chain_of p = chain_of (at_ s) -> inside p = inside (at_ s) -> is_gone p = is_gone (at_ s) ->
  (notified p = true -> notified (at_ s) = true) -> (polled p = true -> polled (at_ s) = true \/ cq s = []) -> inv (set_pc p s).
Proof.
  intros [IS IM IF IB IE IP IR IG IO II] E1 E2 E3 E4 E5 E6. constructor; unfold pending in *; cbn [set_pc at_ rq cq mem armed event str wk rs taken cur log]; rewrite ?E1, ?E2, ?E3, ?E4; auto.
  intros K C. destruct (E6 K); [auto|congruence].
Qed.
Lemma do_iter_ok s i need : inv s -> at_ s = Iter i need -> exists s', do_iter sc c i need s = Ok s' /\ inv s'.
Proof.
  intros I E. unfold do_iter. destruct (i <? max_poll c).
  - destruct (channel c && _).
    + eexists. split; [reflexivity|]. destruct I as [IS IM IF IB IE IP IR IG IO II]. unfold pending in *. rewrite E in *. constructor; unfold pending; cbn [at_ rq cq mem armed event str wk rs taken cur log]; auto. discriminate.
    + eexists. split; [reflexivity|]. apply inv_same_pc; rewrite ?E; auto. discriminate.
  - destruct I as [(leak & P & PL) IM (lost & T & TL) IB IE IP IR IG IO II]. unfold pending in *. rewrite E in *. cbn [chain_of wcs_of is_gone inside notified polled app] in *. destruct (II eq_refl) as (N & F & NS). rewrite (PL eq_refl) in P. rewrite (TL eq_refl) in T. apply (leave_ok need s [] []); auto.
    intros ->. auto.
Qed.
Lemma do_poll_ok s i need : inv s -> at_ s = Poll i need -> inv (do_poll c i need s).
Proof.
  intros I E. pose proof (slots_nodup s I) as (_ & _ & LN). destruct I as [IS IM IF IB IE IP IR IG IO II]. unfold pending in *. rewrite E in *. cbn [chain_of wcs_of is_gone inside notified polled app] in *.
  assert (FA : firstn (n_slots c) (cq s) = cq s) by (apply firstn_all2; lia). assert (SA : skipn (n_slots c) (cq s) = []) by (apply skipn_all2; lia).
  constructor; unfold pending; cbn [do_poll at_ rq cq mem armed event str wk rs taken cur log chain_of wcs_of is_gone inside notified polled app]; rewrite ?FA, ?SA, ?app_nil_r; auto.
Qed.

(** Completions in hand *)
Lemma post_ok s l : length (rq s) + length l <= n_slots c -> post c l s = Ok {| at_ := at_ s; rq := rq s ++ l; cq := cq s; mem := mem s; armed := armed s; event := event s; str := str s; wk := wk s; rs := rs s; taken := taken s; cur := cur s; log := log s |}.
Proof. intro H. unfold post. apply Nat.leb_le in H. now rewrite H. Qed.
(** [s0]: the frame of [w] has been dealt with *)
Lemma link_ok s i need w wcs chain x cur' : inv s -> at_ s = Proc i need (w :: wcs) chain -> cur' = cur s ++ (if c_ok w then [frame_at (mem s) w] else []) ->
  feed sc (no_work (str s)) (flat_map pk cur') = Some x -> is_stopped x = false ->
  exists s', link_slot c i need (c_slot w) wcs chain {| at_ := at_ s; rq := rq s; cq := cq s; mem := mem s; armed := armed s; event := event s; str := str s; wk := x; rs := rs s; taken := taken s; cur := cur'; log := log s |} = Ok s' /\ inv s'.
Proof.
  intros I E EC F NS. pose proof (slots_nodup s I) as (_ & _ & LN). destruct I as [(leak & P & PL) IM (lost & T & TL) IB IE IP IR IG IO II]. unfold pending in *. rewrite E in *. cbn [chain_of wcs_of is_gone inside notified polled map app length] in *.
  rewrite (PL eq_refl), app_nil_r in P. rewrite (TL eq_refl) in T. cbn [app] in T. destruct (II eq_refl) as (N & _ & _). unfold link_slot. rewrite app_length in LN.
  assert (T' : taken s = all_frames (log s) ++ cur' ++ map (frame_at (mem s)) (filter c_ok (wcs ++ cq s))).
  { rewrite EC, T. cbn [filter]. destruct (c_ok w); cbn [map]; rewrite <- !app_assoc; reflexivity. }
  destruct (length (chain ++ [c_slot w]) =? post_batch c).
  - rewrite post_ok by (cbn [rq]; rewrite app_length; cbn [length]; lia). eexists. split; [reflexivity|]. constructor; unfold pending; cbn [set_pc at_ rq cq mem armed event str wk rs taken cur log chain_of wcs_of is_gone inside notified polled app]; auto.
    + exists []. split; [|reflexivity]. rewrite app_nil_r, <- P, <- !app_assoc. cbn [app]. reflexivity.
    + exists []. split; [exact T'|reflexivity].
    + discriminate.
  - eexists. split; [reflexivity|]. constructor; unfold pending; cbn [set_pc at_ rq cq mem armed event str wk rs taken cur log chain_of wcs_of is_gone inside notified polled app]; auto.
    + exists []. split; [|reflexivity]. rewrite app_nil_r, <- P, <- !app_assoc. cbn [app]. reflexivity.
    + exists []. split; [exact T'|reflexivity].
    + discriminate.
Qed.
Lemma do_proc_ok s i need wcs chain : inv s -> at_ s = Proc i need wcs chain -> exists s', do_proc sc c i need wcs chain s = Ok s' /\ inv s'.
Proof.
  intros I E. pose proof (slots_nodup s I) as (ND & BD & LN). pose proof (run_reachable s I) as Re. pose proof I as I0. destruct I as [(leak & P & PL) IM (lost & T & TL) IB IE IP IR IG IO II]. unfold pending in *. rewrite E in *. cbn [chain_of wcs_of is_gone inside notified polled] in *.
  rewrite (PL eq_refl), app_nil_r in P. rewrite (TL eq_refl) in T. cbn [app] in T. destruct (II eq_refl) as (N & F & NS). unfold do_proc. destruct wcs as [|w wcs].
  - cbn [app] in *. destruct chain as [|k chain].
    + eexists. split; [reflexivity|]. apply inv_same_pc; rewrite ?E; auto.
    + rewrite post_ok by lia. eexists. split; [reflexivity|]. constructor; unfold pending; cbn [set_pc at_ rq cq mem armed event str wk rs taken cur log chain_of wcs_of is_gone inside notified polled app]; auto.
      * exists []. split; [|reflexivity]. rewrite app_nil_r, <- P, <- !app_assoc. reflexivity.
      * exists []. split; [exact T|reflexivity].
  - destruct (c_ok w) eqn:OK.
    + assert (WN : c_slot w < n_slots c). { rewrite Forall_forall in BD. apply BD. rewrite !in_app_iff. right; right. cbn [app map]. now left. }
      destruct (nth_error (mem s) (c_slot w)) as [m|] eqn:NE; [|apply nth_error_None in NE; lia].
      assert (NR : existsb (Nat.eqb (c_slot w)) (rq s) = false).
      { destruct (existsb _ _) eqn:X; [|reflexivity]. exfalso. apply existsb_exists in X as (k & Hk & K). apply Nat.eqb_eq in K. subst k. apply in_split in Hk as (l1 & l2 & Hl). rewrite Hl, <- !app_assoc in ND. cbn [app] in ND. apply NoDup_remove_2 in ND. apply ND. rewrite !in_app_iff. right; right; right. cbn [app map]. now left. }
      rewrite NR. assert (FM : slice m 0 (c_len w) = frame_at (mem s) w) by (unfold frame_at; now rewrite (nth_error_nth _ _ _ NE)). rewrite FM. set (f := frame_at (mem s) w) in *.
      cbn [filter app] in T. rewrite OK in T. cbn [map] in T. fold f in T. assert (BF : bytes_ok f) by (rewrite T in IB; apply Forall_app in IB as (_ & IB); apply Forall_app in IB as (_ & IB); now inversion IB).
      assert (BC : Forall bytes_ok (cur s ++ [f])). { rewrite T in IB; apply Forall_app in IB as (_ & IB); apply Forall_app in IB as (IB & _). apply Forall_app. auto. }
      rewrite frame_fed by assumption. destruct (fed_ok _ _ _ Re (pk_decoded _ BC) N) as (x & st' & rs' & F' & BE & S & _ & X).
      assert (Fx : feed sc (wk s) (pk f) = Some x). { rewrite flat_map_app, feed_app, F in F'. cbn [flat_map] in F'. rewrite app_nil_r in F'. exact F'. }
      rewrite Fx. cbn [with_flag option_map]. destruct (is_stopped x) eqn:SX.
      * apply (leave_ok need _ (chain ++ c_slot w :: map c_slot wcs) (map (frame_at (mem s)) (filter c_ok wcs))); cbn [at_ rq cq mem armed event str wk rs taken cur log]; auto; try congruence.
        -- rewrite <- P. apply Permutation_app_head. cbn [app map]. rewrite map_app. rewrite (Permutation_app_comm (map c_slot (cq s))). rewrite <- app_assoc. cbn [app]. reflexivity.
        -- rewrite T, <- !app_assoc. cbn [app]. rewrite filter_app, map_app. reflexivity.
        -- intros ->. auto.
      * apply (link_ok s i need w wcs chain x (cur s ++ [f]) I0 E); auto. now rewrite OK.
    + destruct (link_ok s i need w wcs chain (wk s) (cur s) I0 E) as (s' & L & I'); auto. { now rewrite OK, app_nil_r. } exists s'. split; [|exact I']. rewrite <- L. now destruct s.
Qed.
Lemma enter_ok s ev : inv s -> inside (at_ s) = false -> is_gone (at_ s) = false -> inv (enter ev s).
Proof.
  intros I N G. unfold enter. destruct (st_stopped (str s)) eqn:ST.
  - destruct I as [(leak & P & PL) IM (lost & T & TL) IB IE IP IR IG IO II]. constructor; unfold pending in *; cbn [set_pc at_ rq cq mem armed event str wk rs taken cur log chain_of wcs_of is_gone inside notified polled app]; auto; try discriminate.
    + exists leak. split; [|discriminate]. destruct (at_ s); try discriminate; exact P.
    + exists lost. split; [|discriminate]. destruct (at_ s); try discriminate; exact T.
  - destruct I as [(leak & P & PL) IM (lost & T & TL) IB IE IP IR IG IO II]. rewrite (IO N) in T. constructor; unfold pending in *; cbn [set_pc at_ rq cq mem armed event str wk rs taken cur log chain_of wcs_of is_gone inside notified polled app negb]; auto; try discriminate.
    + exists leak. split; [|auto]. destruct (at_ s); try discriminate; exact P.
    + exists lost. split; [|auto]. destruct (at_ s); try discriminate; exact T.
Qed.
Lemma user_ok s stp : inv s -> inside (at_ s) = false -> exists s', step_user sc stp s = Ok s' /\ inv s'.
Proof.
  intros I N. pose proof (run_reachable s I) as Re. destruct I as [IS IM (lost & T & TL) IB IE IP (ops & M & D & R) IG IO II]. set (o := if stp then Stop else Flush). assert (Do : op_decoded o) by (unfold o; destruct stp; exact Logic.I).
  destruct (step_some sc ops _ _ o Cf D Do R) as (st & r & S). unfold step_user. fold o. rewrite S. eexists. split; [reflexivity|].
  constructor; unfold pending in *; cbn [set_pc at_ rq cq mem armed event str wk rs taken cur log]; auto; try congruence.
  - exists lost. split; [|exact TL]. unfold all_frames in *. rewrite flat_map_app. cbn [flat_map frames_of]. now rewrite !app_nil_r.
  - exists (ops ++ [o]). split; [|split].
    + apply Forall2_app; [exact M|]. constructor; [constructor|constructor].
    + apply Forall_app; auto.
    + now rewrite InprocProofs.run_snoc, R, S.
  - intro G. apply IG in G. pose proof (C20_after_stop sc _ _ [o] Re G) as (s2 & R2 & N2 & _); [auto|]. cbn [run] in R2. rewrite S in R2. injection R2 as -> _. exact N2.
Qed.
Lemma next_ok s l : inv s -> sane l -> next s l = Blocked \/ exists s', next s l = Ok s' /\ inv s'.
Proof.
  intros I Sa. destruct l as [f| | | |stp]; cbn [IbvRecvModel.next].
  - destruct (rq s) as [|k rq'] eqn:E; [now left|]. destruct (zlen f <=? raw_size c)%Z; [|now left]. right. apply complete_ok; auto.
  - destruct (rq s) as [|k rq'] eqn:E; [now left|]. right. apply complete_ok; auto.
  - destruct (at_ s) eqn:E; [|right|right|right|right|now left].
    + destruct (event s); [|now left]. right. eexists. split; [reflexivity|]. apply enter_ok; auto; now rewrite E.
    + eexists. split; [reflexivity|]. apply enter_ok; auto; now rewrite E.
    + now apply do_iter_ok.
    + eexists. split; [reflexivity|]. now apply do_poll_ok.
    + now apply do_proc_ok.
  - destruct (at_ s) eqn:E; try now left. right. destruct (st_stopped (str s)) eqn:ST.
    + eexists. split; [reflexivity|]. pose proof (enter_ok s false I) as X. rewrite E in X. unfold enter in X. rewrite ST in X. auto.
    + destruct I as [(leak & P & PL) IM (lost & T & TL) IB IE IP IR IG IO II]. unfold pending in *. rewrite E in *. cbn [chain_of wcs_of is_gone inside notified polled map app] in *. rewrite (PL eq_refl) in P. rewrite (TL eq_refl), (IO eq_refl) in T.
      apply (leave_ok true _ [] []); cbn [set_pc at_ rq cq mem armed event str wk rs taken cur log]; auto.
  - destruct (at_ s) eqn:E; try (left; reflexivity); right; (apply user_ok; [exact I|now rewrite E]).
Qed.
Lemma reach_inv s : reach s -> inv s.
Proof. induction 1 as [|s l s' R IH Sa E]; [apply inv_init|]. destruct (next_ok s l IH Sa) as [B|(s2 & E2 & I2)]; [congruence|]. rewrite E in E2. injection E2 as <-. exact I2. Qed.
End Inv.
