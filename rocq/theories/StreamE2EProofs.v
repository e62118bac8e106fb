(** A heap whose packets all arrive in time is handed over complete. *)
From Coq Require Import ZArith List Lia Bool Permutation Sorted.
From Coq Require Import ZifyBool ZifyNat.
From Verif Require Import Base CodecModel PacketSpec RecvPacketModel LiveHeapModel LiveHeapSpec LiveHeapProofs LiveHeapProps ReassembleProofs
  StreamModel StreamSpec StreamProofs StreamInvProofs StreamRunProofs StreamProps.
Import ListNotations.
Open Scope Z_scope.


Lemma skipn_skipn' {A} (i : nat) : forall (j : nat) (l : list A), skipn i (skipn j l) = skipn (i + j) l.
Proof.
  intros j. induction j as [|j IH]; intro l; [now rewrite Nat.add_0_r|]. rewrite Nat.add_succ_r.
  destruct l as [|x l]; [now rewrite !skipn_nil|]. cbn [skipn]. apply IH.
Qed.

Section Delivery.
  Variable c : sconfig.
  Hypothesis Hc : config_ok c.
  Hypothesis Hooo : sc_allow_ooo c = true.
  Hypothesis Hstop : sc_stop_item c = false.
  Context {hab L : Z} {whole : list Z} {fam : list rpkt} (F : family hab L whole fam).
  Variable C : Z.
  Hypothesis HC : forall p, In p fam -> rp_cnt p = C.

  Definition whole_heap (h : live_heap) : Prop :=
    lh_cnt h = C /\ lh_hab h = hab /\ is_complete h = true /\ lh_min h = L /\ slice (lh_mem h) 0 L = map Some whole /\
    (forall q, In q (lh_pointers h) <-> exists p, In p fam /\ In q (rp_ptrs p) /\ kept hab q = true).

  (** Assembled from packets of the family, all of them. *)
  Definition assembled (h : live_heap) : Prop :=
    whole_heap h /\ exists p0 ps bs, reaches p0 true (p0 :: ps) h bs /\ (forall p, In p (p0 :: ps) <-> In p fam).

  (** What reassembly makes of packets of the family. *)
  Lemma built_family u h log ds : built c u h log -> offered_pkts u log = ds -> ds <> [] ->
    (forall p, In p ds -> In p fam) ->
    (is_complete h = true <-> forall p, In p fam -> In p ds) /\ (is_complete h = true -> assembled h).
  Proof.
    intros (p0 & B1 & B2 & B3 & B4) Hds Hne Hin. rewrite Hds, Hooo in *.
    assert (Hp0 : In p0 fam).
    { destruct ds as [|d ds']; [contradiction|]. rewrite <- (B2 d eq_refl). apply Hin. now left. }
    pose proof (fm_hab _ _ _ _ F) as HH. pose proof (fm_dec _ _ _ _ F) as HD. pose proof (fm_pos _ _ _ _ F) as HP.
    rewrite Forall_forall in HH, HP.
    assert (Hkey : forall p q, In p fam -> In q fam -> ((rp_off p =? rp_off q) = true <-> p = q)).
    { intros p q Hp Hq. split; [|intros ->; lia]. intro E. apply (fm_inj _ _ _ _ F); try assumption.
      exists (rp_off p). specialize (HP p Hp) as P1. specialize (HP q Hq) as P2. unfold carries. cbn in P1, P2. lia. }
    destruct (family_delivery F Z.eqb rp_off p0 ds Hkey (HH p0 Hp0) Hin) as (h1 & HR & HA).
    unfold reaches in HR. rewrite B4 in HR. injection HR as <- Hres.
    destruct (family_complete F p0 ds (offered_res u log) h (HH p0 Hp0) Hne Hin) as (J1 & J2 & J3).
    - exact B4.
    - now rewrite Hres.
    - split; [exact J1|]. intro Hcomp. destruct (J2 Hcomp) as [K1 K2].
      assert (HDs : Forall decoded ds).
      { apply Forall_forall. intros q Hq. rewrite Forall_forall in HD. apply HD. now apply Hin. }
      destruct (reaches_inv p0 true ds h _ HDs B4) as (_ & _ & Hh).
      split; [|destruct ds as [|d ds']; [contradiction|]; rewrite (B2 d eq_refl) in *; exists p0, ds', (offered_res u log);
        split; [exact B4|intro p; split; [apply Hin|exact (proj1 J1 Hcomp p)]]].
      split; [rewrite <- B1; now apply HC|]. split; [rewrite Hh; now apply HH|]. split; [exact Hcomp|].
      split; [exact K1|]. split; [exact K2|]. intro q. rewrite J3. split; intros (p & Hp & Hq); exists p.
      + split; [now apply Hin|exact Hq].
      + split; [now apply (proj1 J1 Hcomp)|exact Hq].
  Qed.

  Variable n0 : nat.   (* heaps started before *)

  Definition delivered (a : astream) : Prop :=
    exists o, In o (as_out a) /\ oh_why o = Complete /\ (n0 <= oh_uid o)%nat /\ assembled (oh_heap o).
  Definition waiting (a : astream) (seen : list rpkt) : Prop :=
    (seen = [] /\ forall x, In x (as_live a) -> lh_cnt (ah_heap x) <> C) \/
    (seen <> [] /\ exists x, find (fun y => lh_cnt (ah_heap y) =? C) (as_live a) = Some x /\
       (n0 <= ah_uid x)%nat /\ offered_pkts (ah_uid x) (as_log a) = seen).

  (** Heaps of the same substream started since. *)
  Definition started_since (hist : list Z) : nat := length (filter (in_sub c (get_substream c C)) (skipn n0 hist)).

  Lemma started_since_after u hist : (n0 <= u)%nat -> nth_error hist u = Some C ->
    (S (started_after c C u hist) <= started_since hist)%nat.
  Proof.
    intros Hu Hn. unfold started_since, started_after.
    assert (E : skipn n0 hist = firstn (u - n0) (skipn n0 hist) ++ C :: skipn (S u) hist).
    { rewrite <- (firstn_skipn (u - n0) (skipn n0 hist)) at 1. f_equal. rewrite skipn_skipn'. replace (u - n0 + n0)%nat with u by lia.
      clear - Hn. revert hist Hn. induction u as [|u IH]; intros [|x l] Hn; try discriminate; [now injection Hn as ->|]. cbn [skipn nth_error] in *. now apply IH. }
    rewrite E, filter_app, app_length. cbn [filter].
    assert (Ei : in_sub c (get_substream c C) C = true) by (unfold in_sub; apply Nat.eqb_refl). rewrite Ei. cbn [length]. lia.
  Qed.
  Lemma started_since_app hist t : (n0 <= length hist)%nat -> (started_since hist <= started_since (hist ++ t))%nat.
  Proof.
    intro H. unfold started_since. rewrite skipn_app. replace (n0 - length hist)%nat with 0%nat by lia. cbn [skipn].
    rewrite filter_app, app_length. lia.
  Qed.

  Lemma find_without i l x : find (fun y => lh_cnt (ah_heap y) =? C) l = Some x -> ah_slot x <> i ->
    find (fun y => lh_cnt (ah_heap y) =? C) (without_slot i l) = Some x.
  Proof.
    intros H Hx. induction l as [|y l IH]; [discriminate|]. cbn [find without_slot filter] in *. unfold in_slot at 1.
    destruct (Nat.eqb_spec (ah_slot y) i) as [E|E]; cbn [negb find].
    - destruct (Z.eqb_spec (lh_cnt (ah_heap y)) C); [congruence|]. now apply IH.
    - destruct (Z.eqb_spec (lh_cnt (ah_heap y)) C); [exact H|]. now apply IH.
  Qed.
  Lemma find_with_other i h l x : find (fun y => lh_cnt (ah_heap y) =? C) l = Some x -> ah_slot x <> i ->
    (forall y, In y l -> ah_slot y = i -> lh_cnt (ah_heap y) <> C) -> lh_cnt h <> C ->
    find (fun y => lh_cnt (ah_heap y) =? C) (with_heap i h l) = Some x.
  Proof.
    intros H Hx Hy Hh. induction l as [|y l IH]; [discriminate|]. cbn [find with_heap map] in *. change (in_slot i y) with (Nat.eqb (ah_slot y) i).
    destruct (Nat.eqb_spec (ah_slot y) i) as [E|E]; cbn [ah_heap].
    - destruct (Z.eqb_spec (lh_cnt h) C); [contradiction|].
      destruct (Z.eqb_spec (lh_cnt (ah_heap y)) C); [exfalso; now apply (Hy y (or_introl eq_refl))|].
      apply IH; [exact H|]. intros; apply Hy; [now right|assumption].
    - destruct (Z.eqb_spec (lh_cnt (ah_heap y)) C); [exact H|]. apply IH; [exact H|]. intros; apply Hy; [now right|assumption].
  Qed.
  Lemma find_with_same h l x : find (fun y => lh_cnt (ah_heap y) =? C) l = Some x -> NoDup (map ah_slot l) -> lh_cnt h = C ->
    find (fun y => lh_cnt (ah_heap y) =? C) (with_heap (ah_slot x) h l) = Some {| ah_slot := ah_slot x; ah_uid := ah_uid x; ah_heap := h |}.
  Proof.
    intros H HN Hh. induction l as [|y l IH]; [discriminate|]. cbn [find with_heap map] in *. apply NoDup_cons_iff in HN as [N1 N2].
    change (in_slot (ah_slot x) y) with (Nat.eqb (ah_slot y) (ah_slot x)). destruct (Z.eqb_spec (lh_cnt (ah_heap y)) C) as [Ey|Ey].
    - injection H as <-. rewrite Nat.eqb_refl. cbn [ah_heap]. rewrite Hh, Z.eqb_refl. reflexivity.
    - apply find_some in H as Hin. destruct Hin as [Hin _].
      destruct (Nat.eqb_spec (ah_slot y) (ah_slot x)) as [E|E]; [exfalso; apply N1; rewrite E; now apply in_map|].
      destruct (Z.eqb_spec (lh_cnt (ah_heap y)) C); [contradiction|]. now apply IH.
  Qed.

  Lemma effect_out p r a a' : config_ok c -> ainv c a -> effect c p r a a' -> exists new, as_out a' = as_out a ++ new.
  Proof.
    intros _ HI [Hr Ea HD|x h' H1 H2 H3 H4 H5 H6|a1 i m h' H1 H2 H3 H4 H5 H6 H7].
    - exists []. rewrite Ea, app_nil_r. reflexivity.
    - destruct (is_complete h').
      + destruct H6 as (_ & _ & H6). destruct (sc_stop_item c && lh_eos h'); destruct H6 as [-> _]; [exists []; now rewrite app_nil_r|eauto].
      + destruct H6 as (_ & -> & _). exists []. now rewrite app_nil_r.
    - destruct (new_entry_inv c a p a1 i m Hc HI H3) as (_ & _ & _ & _ & _ & _ & L0 & _ & N8).
      assert (HO : exists new, as_out a1 = as_out a ++ new).
      { destruct N8 as [(_ & _ & ->)|(_ & x & _ & _ & _ & _ & _ & ->)]; [exists []; now rewrite app_nil_r|eauto]. }
      destruct HO as (nw & HO). destruct (is_complete h').
      + destruct H7 as (_ & _ & H7). destruct (sc_stop_item c && lh_eos h'); destruct H7 as [-> _]; rewrite HO; [eauto|rewrite <- app_assoc; eauto].
      + destruct H7 as (_ & -> & _). eauto.
  Qed.

  Lemma effect_hist p r a a' : effect c p r a a' -> exists t, as_hist a' = as_hist a ++ t.
  Proof.
    intros [Hr Ea HD|x h' H1 H2 H3 H4 H5 H6|a1 i m h' H1 H2 H3 H4 H5 H6 H7].
    - exists []. rewrite Ea, app_nil_r. reflexivity.
    - exists []. now rewrite H3, app_nil_r.
    - eauto.
  Qed.

  Definition add_seen (seen : list rpkt) (p : rpkt) : list rpkt := seen ++ (if rp_cnt p =? C then [p] else []).

  Lemma effect_step p r a a' seen :
    ainv c a -> ainv c a' -> effect c p r a a' -> rpkt_ok p -> (rp_cnt p = C -> In p fam) -> (forall q, In q seen -> In q fam) ->
    (n0 <= length (as_hist a))%nat -> (started_since (as_hist a') <= sc_max_heaps c)%nat ->
    waiting a seen -> delivered a' \/ waiting a' (add_seen seen p).
  Proof.
    intros HI HI' HE Hok Hfam Hseen Hn0 Hss HW. unfold add_seen.
    pose proof (ai_base _ _ HI) as HB. pose proof (ai_base _ _ HI') as HB'.
    (* no packet of the heap is refused *)
    assert (HfL : In p fam -> 0 <= rp_hlen p).
    { intro Hp. pose proof (fm_len _ _ _ _ F) as HL. rewrite Forall_forall in HL. rewrite (HL p Hp). exact (fam_L F p Hp). }
    destruct HE as [Hr Ea HD|x h' H1 H2 H3 H4 H5 H6|a1 i m h' H1 H2 H3 H4 H5 H6 H7].
    - (* refused *)
      subst a'. right. destruct (Z.eqb_spec (rp_cnt p) C) as [E|E]; [|now rewrite app_nil_r].
      exfalso. specialize (HfL (Hfam E)). destruct HD as [[HD _]|[HD _]]; [lia|congruence].
    - (* offered to x *)
      pose proof (find_some _ _ H2) as [Hx Hcx]. apply Z.eqb_eq in Hcx.
      destruct (ab_live _ _ HB x Hx) as (X1 & X2 & X3).
      destruct (Z.eqb_spec (rp_cnt p) C) as [E|E].
      + (* the heap *)
        rewrite E in H2, Hcx. destruct HW as [[-> HW]|(Hne & y & Hy & Hyn & Hoff)]; [exfalso; now apply (HW x)|].
        rewrite H2 in Hy. injection Hy as <-.
        assert (Hoff' : offered_pkts (ah_uid x) (as_log a') = seen ++ [p]).
        { rewrite H4, offered_pkts_snoc, Nat.eqb_refl, Hoff. reflexivity. }
        destruct (is_complete h') eqn:EC.
        * left. destruct H6 as (-> & EL & EO). rewrite Hstop in EO. cbn [andb] in EO. destruct EO as [EO _].
          set (o := {| oh_uid := ah_uid x; oh_why := Complete; oh_heap := h' |}) in *.
          assert (Ho : In o (as_out a')) by (rewrite EO; apply in_or_app; right; now left).
          exists o. split; [exact Ho|]. split; [reflexivity|]. split; [exact Hyn|].
          destruct (ab_out _ _ HB' o Ho) as (_ & O2 & O3).
          apply (built_family (oh_uid o) (oh_heap o) (as_log a') (seen ++ [p]) O2 Hoff'); [destruct seen; discriminate| |exact O3].
          intros q Hq. apply in_app_or in Hq as [Hq|[<-|[]]]; [now apply Hseen|now apply Hfam].
        * right. right. destruct H6 as (EL & _ & _). split; [destruct seen; discriminate|].
          exists {| ah_slot := ah_slot x; ah_uid := ah_uid x; ah_heap := h' |}. split; [|split; [exact Hyn|exact Hoff']].
          rewrite EL. apply find_with_same; [exact H2|exact (ab_nodup _ _ HB)|].
          assert (Hin' : In {| ah_slot := ah_slot x; ah_uid := ah_uid x; ah_heap := h' |} (as_live a')).
          { rewrite EL. apply with_heap_In. left. exists x. auto. }
          destruct (ab_live _ _ HB' _ Hin') as (L1 & _). cbn [ah_uid ah_heap] in L1. rewrite H3, X1 in L1. injection L1 as L1. congruence.
      + (* another heap *)
        rewrite app_nil_r. right.
        assert (Hslot : forall y, In y (as_live a) -> ah_slot y = ah_slot x -> lh_cnt (ah_heap y) <> C).
        { intros y Hy Ey. rewrite (slot_unique (as_live a) y x (ab_nodup _ _ HB) Hy Hx Ey). congruence. }
        assert (Hh' : is_complete h' = false -> lh_cnt h' <> C).
        { intro EC. rewrite EC in H6. destruct H6 as (EL & _).
          assert (Hin' : In {| ah_slot := ah_slot x; ah_uid := ah_uid x; ah_heap := h' |} (as_live a')).
          { rewrite EL. apply with_heap_In. left. exists x. auto. }
          destruct (ab_live _ _ HB' _ Hin') as (L1 & _). cbn [ah_uid ah_heap] in L1. rewrite H3, X1 in L1. injection L1 as L1. congruence. }
        destruct HW as [[-> HW]|(Hne & y & Hy & Hyn & Hoff)]; [left|right]; (split; [reflexivity || exact Hne|]).
        * intros z Hz. destruct (is_complete h') eqn:EC.
          -- destruct H6 as (_ & EL & _). rewrite EL in Hz. apply without_In in Hz as [Hz _]. now apply HW.
          -- destruct H6 as (EL & _). rewrite EL in Hz. apply with_heap_In in Hz as [(w & _ & _ & ->)|[Hz _]]; [now apply Hh'|now apply HW].
        * pose proof (find_some _ _ Hy) as [Hyin Hyc]. apply Z.eqb_eq in Hyc.
          assert (Hyx : ah_slot y <> ah_slot x) by (intro Ey; now apply (Hslot y Hyin Ey)).
          exists y. split; [|split; [exact Hyn|]].
          -- destruct (is_complete h') eqn:EC.
             ++ destruct H6 as (_ & EL & _). rewrite EL. now apply find_without.
             ++ destruct H6 as (EL & _). rewrite EL. apply find_with_other; try assumption. now apply Hh'.
          -- rewrite H4, offered_pkts_snoc. destruct (Nat.eqb_spec (ah_uid x) (ah_uid y)) as [Eu|Eu]; [|now rewrite app_nil_r].
             exfalso. apply Hyx. f_equal. symmetry. apply (uid_inj a); [exact (ab_NoDup _ _ HB)|exact Hx|exact Hyin|exact Eu].
    - (* a new heap *)
      destruct (new_entry_inv c a p a1 i m Hc HI H3) as (N1 & N2 & N3 & N4 & N5 & N6 & L0 & N7 & N8).
      pose proof (ai_base _ _ N1) as HB1.
      set (new := {| ah_slot := i; ah_uid := length (as_hist a); ah_heap := live_heap_new p |}) in *.
      assert (Hslot : forall y, In y (as_live a1) -> ah_slot y = i -> y = new).
      { intros y Hy Ey. apply (slot_unique (as_live a1)); [exact (ab_nodup _ _ HB1)|exact Hy|rewrite N7; now left|exact Ey]. }
      destruct (Z.eqb_spec (rp_cnt p) C) as [E|E].
      + (* the heap: its first packet *)
        assert (Hfirst : seen = []).
        { destruct HW as [[-> _]|(Hne & y & Hy & Hyn & Hoff)]; [reflexivity|exfalso].
          pose proof (find_some _ _ Hy) as [Hyin Hyc]. apply Z.eqb_eq in Hyc.
          destruct H1 as [H1|H1]; [|apply (H1 y Hyin); congruence].
          (* a whole-heap packet while another is incomplete: impossible *)
          destruct (ab_live _ _ HB y Hyin) as (Y1 & Y2 & Y3).
          destruct (built_family _ _ _ seen Y2 Hoff Hne Hseen) as [J1 _]. rewrite Y3 in J1.
          enough (false = true) by discriminate. apply J1. intros q Hq.
          pose proof (fm_pos _ _ _ _ F) as HP. pose proof (fm_len _ _ _ _ F) as HL. pose proof (fm_dec _ _ _ _ F) as HDc.
          rewrite Forall_forall in HP, HL, HDc.
          assert (Hall : forall q, In q fam -> q = p).
          { intros z Hz. specialize (Hfam E). apply (fm_inj _ _ _ _ F); try assumption. exists (rp_off z).
            pose proof (HP z Hz) as P1. pose proof (HL z Hz) as P2. pose proof (HL p Hfam) as P3. cbn in P1, P2, P3.
            pose proof (decoded_ok z (HDc z Hz)) as Oz. pose proof (decoded_ok p (HDc p Hfam)) as Op.
            pose proof (ro_off z Oz). pose proof (ro_off p Op). pose proof (ro_hlen z Oz). pose proof (ro_hlen p Op).
            unfold single_packet in H1. unfold carries. lia. }
          rewrite (Hall q Hq). destruct seen as [|q' s']; [contradiction|]. rewrite <- (Hall q' (Hseen q' (or_introl eq_refl))). now left. }
        subst seen. cbn [app].
        assert (Hoff' : offered_pkts (length (as_hist a)) (as_log a') = [p]).
        { rewrite H5, offered_pkts_snoc, Nat.eqb_refl. unfold offered_pkts. rewrite offered_fresh; [reflexivity|].
          intros e He. now apply (ab_log _ _ HB). }
        destruct (is_complete h') eqn:EC.
        * left. destruct H7 as (-> & EL & EO). rewrite Hstop in EO. cbn [andb] in EO. destruct EO as [EO _].
          set (o := {| oh_uid := length (as_hist a); oh_why := Complete; oh_heap := h' |}) in *.
          assert (Ho : In o (as_out a')) by (rewrite EO; apply in_or_app; right; now left).
          exists o. split; [exact Ho|]. split; [reflexivity|]. split; [exact Hn0|].
          destruct (ab_out _ _ HB' o Ho) as (_ & O2 & O3).
          apply (built_family (oh_uid o) (oh_heap o) (as_log a') [p] O2 Hoff'); [discriminate| |exact O3].
          intros q [<-|[]]. now apply Hfam.
        * right. right. destruct H7 as (EL & _ & _). split; [discriminate|].
          exists {| ah_slot := i; ah_uid := length (as_hist a); ah_heap := h' |}. split; [|split; [exact Hn0|exact Hoff']].
          rewrite EL. apply (find_with_same h' (as_live a1) new); [|exact (ab_nodup _ _ HB1)|].
          -- rewrite N7. cbn [find new ah_heap live_heap_new lh_cnt]. rewrite E, Z.eqb_refl. reflexivity.
          -- assert (Hin' : In {| ah_slot := i; ah_uid := ah_uid new; ah_heap := h' |} (as_live a')).
             { rewrite EL. apply with_heap_In. left. exists new. split; [rewrite N7; now left|auto]. }
             destruct (ab_live _ _ HB' _ Hin') as (L1 & _). cbn [ah_uid ah_heap new] in L1.
             rewrite H4, nth_error_app2, Nat.sub_diag in L1 by lia. injection L1 as L1. congruence.
      + (* another heap *)
        rewrite app_nil_r. right.
        assert (Hh' : is_complete h' = false -> lh_cnt h' <> C).
        { intro EC. rewrite EC in H7. destruct H7 as (EL & _).
          assert (Hin' : In {| ah_slot := i; ah_uid := ah_uid new; ah_heap := h' |} (as_live a')).
          { rewrite EL. apply with_heap_In. left. exists new. split; [rewrite N7; now left|auto]. }
          destruct (ab_live _ _ HB' _ Hin') as (L1 & _). cbn [ah_uid ah_heap new] in L1.
          rewrite H4, nth_error_app2, Nat.sub_diag in L1 by lia. injection L1 as L1. congruence. }
        assert (Hlive : forall z, In z (as_live a') -> lh_cnt (ah_heap z) = C -> In z (as_live a1)).
        { intros z Hz Ez. destruct (is_complete h') eqn:EC.
          - destruct H7 as (_ & EL & _). rewrite EL in Hz. now apply without_In in Hz.
          - destruct H7 as (EL & _). rewrite EL in Hz. apply with_heap_In in Hz as [(w & _ & _ & ->)|[Hz _]]; [exfalso; now apply Hh'|exact Hz]. }
        destruct HW as [[-> HW]|(Hne & y & Hy & Hyn & Hoff)]; [left|right]; (split; [reflexivity || exact Hne|]).
        * intros z Hz Ez. specialize (Hlive z Hz Ez). rewrite N7 in Hlive. destruct Hlive as [<-|Hin]; [apply E; exact Ez|].
          apply (HW z); [|exact Ez]. destruct N8 as [(_ & -> & _)|(_ & x & _ & _ & -> & _)] in Hin; [exact Hin|]. now apply without_In in Hin.
        * pose proof (find_some _ _ Hy) as [Hyin Hyc]. apply Z.eqb_eq in Hyc.
          destruct (ab_live _ _ HB y Hyin) as (Y1 & Y2 & Y3).
          (* not evicted *)
          assert (Hy1 : find (fun y => lh_cnt (ah_heap y) =? C) (as_live a1) = Some y).
          { rewrite N7. cbn [find]. change (lh_cnt (ah_heap new)) with (rp_cnt p). destruct (Z.eqb_spec (rp_cnt p) C); [contradiction|].
            destruct N8 as [(_ & -> & _)|(_ & x & Hx & Hxi & -> & Hsub & Hmax & _)]; [exact Hy|].
            apply find_without; [exact Hy|]. intro Eyi.
            assert (y = x) by (apply (slot_unique (as_live a)); [exact (ab_nodup _ _ HB)|exact Hyin|exact Hx|congruence]). subst x.
            rewrite Hyc, N2 in Hmax. rewrite H4 in Hss.
            pose proof (started_since_after (ah_uid y) (as_hist a ++ [rp_cnt p]) Hyn) as HSS.
            rewrite nth_error_app1 in HSS by (exact (nth_hist_lt _ _ _ Y1)). rewrite Y1, Hyc in HSS. specialize (HSS eq_refl). lia. }
          assert (Hyi : ah_slot y <> i).
          { intro Eyi. pose proof (find_some _ _ Hy1) as [Hyin1 _]. rewrite (Hslot y Hyin1 Eyi) in Hyc. now apply E. }
          exists y. split; [|split; [exact Hyn|]].
          -- destruct (is_complete h') eqn:EC.
             ++ destruct H7 as (_ & EL & _). rewrite EL. now apply find_without.
             ++ destruct H7 as (EL & _). rewrite EL. apply find_with_other; try assumption; [|now apply Hh'].
                intros z Hz Ez. rewrite (Hslot z Hz Ez). exact E.
          -- rewrite H5, offered_pkts_snoc. pose proof (nth_hist_lt _ _ _ Y1).
             destruct (Nat.eqb_spec (length (as_hist a)) (ah_uid y)); [lia|now rewrite app_nil_r].
  Qed.

  Lemma delivered_app a a' new : as_out a' = as_out a ++ new -> delivered a -> delivered a'.
  Proof. intros E (o & Ho & H). exists o. split; [rewrite E; apply in_or_app; now left|exact H]. Qed.

  Definition heap_pkts (ps : list rpkt) : list rpkt := filter (fun p => rp_cnt p =? C) ps.
  Lemma add_seen_of seen p : add_seen seen p = seen ++ heap_pkts [p].
  Proof. reflexivity. Qed.

  Lemma effects_step ps rs a a' : effects c ps rs a a' -> forall seen,
    ainv c a -> Forall rpkt_ok ps -> (forall p, In p ps -> rp_cnt p = C -> In p fam) -> (forall q, In q seen -> In q fam) ->
    (n0 <= length (as_hist a))%nat -> (started_since (as_hist a') <= sc_max_heaps c)%nat ->
    delivered a \/ waiting a seen -> delivered a' \/ waiting a' (seen ++ heap_pkts ps).
  Proof.
    induction 1 as [a|p r ps rs a a1 a2 HE HI1 HR IH]; intros seen HI Hok Hfam Hseen Hn0 Hss HW.
    - rewrite app_nil_r. exact HW.
    - inversion Hok as [|? ? Hp Hok']; subst. change (p :: ps) with ([p] ++ ps). unfold heap_pkts. rewrite filter_app, app_assoc.
      assert (Ht : forall a a' ps rs, effects c ps rs a a' -> exists t, as_hist a' = as_hist a ++ t).
      { clear. induction 1 as [a|p r ps rs a a1 a2 HE _ _ [t IH]]; [exists []; now rewrite app_nil_r|].
        destruct (effect_hist _ _ _ _ HE) as [t1 E1]. rewrite IH, E1, <- app_assoc. eauto. }
      destruct (Ht _ _ _ _ HR) as [t2 E2]. destruct (effect_hist _ _ _ _ HE) as [t1 E1].
      assert (Hn1 : (n0 <= length (as_hist a1))%nat) by (rewrite E1, app_length; lia).
      apply IH; try assumption.
      + intros q Hq. apply Hfam. now right.
      + intros q Hq. apply in_app_or in Hq as [Hq|Hq]; [now apply Hseen|]. apply filter_In in Hq as [[<-|[]] Hq].
        apply Hfam; [now left|lia].
      + destruct HW as [HD|HW].
        * left. destruct (effect_out _ _ _ _ Hc HI HE) as [nw EO]. exact (delivered_app _ _ _ EO HD).
        * apply (effect_step p r a a1 seen); try assumption.
          -- apply Hfam. now left.
          -- pose proof (started_since_app (as_hist a1) t2 Hn1) as HM. rewrite <- E2 in HM. lia.
  Qed.

  Definition op_pkts (o : op) : list rpkt := match o with Batch ps _ => ps | _ => [] end.
  Definition is_batch (o : op) : Prop := match o with Batch _ _ => True | _ => False end.

  Lemma op_step n st s a o s' rs seen :
    sim c n (batch_zero st) s a -> op_ok o -> is_batch o -> step c s o = Some (s', rs) -> st_stopped s' = false ->
    (forall p, In p (op_pkts o) -> rp_cnt p = C -> In p fam) -> (forall q, In q seen -> In q fam) ->
    (n0 <= length (as_hist a))%nat ->
    exists a' st', sim c (n + zlen rs) (batch_zero st') s' a' /\ (exists t, as_hist a' = as_hist a ++ t) /\
      ((started_since (as_hist a') <= sc_max_heaps c)%nat -> delivered a \/ waiting a seen -> delivered a' \/ waiting a' (seen ++ heap_pkts (op_pkts o))).
  Proof.
    intros HS Hok Hb HSt Hst Hfam Hseen Hn0.
    destruct (step_sim c n st s a o Hc HS Hok) as (s1 & a1 & rs1 & st1 & E & HS1 & He).
    rewrite HSt in E. injection E as <- <-. exists a1, st1. split; [exact HS1|].
    assert (Hsa : as_stopped a1 = false) by (rewrite <- (rf_stopped _ _ _ (proj1 HS1)); exact Hst).
    destruct o as [ps eof| |]; [|contradiction|contradiction]. cbn [op_effect op_pkts] in *. rewrite Hsa in He.
    destruct (as_stopped a) eqn:Es.
    { destruct He as [_ He]. subst a1. congruence. }
    destruct He as (ps1 & ps2 & a2 & -> & HE & Hnil & _ & EL & _ & EH & EO & _ & EG). rewrite (Hnil eq_refl), app_nil_r in *.
    assert (Ht : forall a a' ps rs, effects c ps rs a a' -> exists t, as_hist a' = as_hist a ++ t).
    { clear. induction 1 as [a|p r ps rs a a1 a2 HE _ _ [t IH]]; [exists []; now rewrite app_nil_r|].
      destruct (effect_hist _ _ _ _ HE) as [t1 E1]. rewrite IH, E1, <- app_assoc. eauto. }
    destruct (Ht _ _ _ _ HE) as [t2 E2]. split; [exists t2; congruence|]. intros Hss HW.
    rewrite EH in Hss.
    destruct (effects_step ps1 rs a a2 HE seen (gd_inv _ _ _ _ (proj2 HS)) Hok Hfam Hseen Hn0 Hss HW) as [(o & H1 & H2)|HW2].
    - left. exists o. rewrite EO. auto.
    - right. unfold waiting in *. rewrite EL, EG. exact HW2.
  Qed.

  Lemma run_delivers ops : forall n st s a s' rs seen,
    sim c n (batch_zero st) s a -> Forall op_ok ops -> Forall is_batch ops -> run c s ops = Some (s', rs) -> st_stopped s' = false ->
    (forall p, In p (flat_map op_pkts ops) -> rp_cnt p = C -> In p fam) -> (forall q, In q seen -> In q fam) ->
    (n0 <= length (as_hist a))%nat ->
    exists a' st', sim c (n + zlen rs) (batch_zero st') s' a' /\ (exists t, as_hist a' = as_hist a ++ t) /\
      ((started_since (as_hist a') <= sc_max_heaps c)%nat -> delivered a \/ waiting a seen ->
       delivered a' \/ waiting a' (seen ++ heap_pkts (flat_map op_pkts ops))).
  Proof.
    induction ops as [|o ops IH]; intros n st s a s' rs seen HS Hok Hb HR Hst Hfam Hseen Hn0; cbn [run] in HR.
    - injection HR as <- <-. exists a, st. rewrite Z.add_0_r. split; [exact HS|]. split; [exists []; now rewrite app_nil_r|].
      intros _ HW. cbn [flat_map heap_pkts filter]. rewrite app_nil_r. exact HW.
    - inversion Hok as [|? ? Ho Hok']; inversion Hb as [|? ? Hbo Hb']; subst.
      destruct (step c s o) as [[s1 rs1]|] eqn:Es; [|discriminate].
      destruct (run c s1 ops) as [[s2 rs2]|] eqn:Er; [|discriminate]. injection HR as <- <-.
      assert (Hst1 : st_stopped s1 = false).
      { destruct (step_sim c n st s a o Hc HS Ho) as (s1' & a1' & rs1' & st1' & E & HS1' & _). rewrite Es in E. injection E as <- <-.
        destruct (st_stopped s1) eqn:Est; [|reflexivity]. exfalso.
        assert (Hall : forall ops s s' rs, st_stopped s = true -> Forall is_batch ops -> run c s ops = Some (s', rs) -> s' = s).
        { clear. induction ops as [|o ops IH]; intros s s' rs Hst Hb HR; cbn [run] in HR; [congruence|]. inversion Hb as [|? ? Hbo Hb']; subst.
          destruct o as [ps eof| |]; [|contradiction|contradiction]. cbn [step] in HR. unfold do_batch in HR. rewrite Hst in HR.
          destruct (run c s ops) as [[s2 rs2]|] eqn:Er; [|discriminate]. injection HR as <- <-. exact (IH _ _ _ Hst Hb' Er). }
        rewrite (Hall _ _ _ _ Est Hb' Er) in Hst. congruence. }
      destruct (op_step n st s a o s1 rs1 seen HS Ho Hbo Es Hst1) as (a1 & st1 & HS1 & [t1 E1] & HD1); try assumption.
      { intros p Hp. apply Hfam. cbn [flat_map]. apply in_or_app. now left. }
      destruct (IH _ _ _ _ _ _ (seen ++ heap_pkts (op_pkts o)) HS1 Hok' Hb' Er Hst) as (a2 & st2 & HS2 & [t2 E2] & HD2).
      { intros p Hp. apply Hfam. cbn [flat_map]. apply in_or_app. now right. }
      { intros q Hq. apply in_app_or in Hq as [Hq|Hq]; [now apply Hseen|]. apply filter_In in Hq as [Hq Hq2].
        apply Hfam; [cbn [flat_map]; apply in_or_app; now left|lia]. }
      { rewrite E1, app_length. lia. }
      exists a2, st2. split; [rewrite zlen_app, Z.add_assoc; exact HS2|]. split; [exists (t1 ++ t2); rewrite E2, E1; now rewrite <- app_assoc|].
      intros Hss HW. cbn [flat_map]. unfold heap_pkts. rewrite filter_app, app_assoc. apply HD2; [exact Hss|]. apply HD1; [|exact HW].
      assert (Hn1 : (n0 <= length (as_hist a1))%nat) by (rewrite E1, app_length; lia).
      pose proof (started_since_app (as_hist a1) t2 Hn1) as HM. rewrite <- E2 in HM. lia.
  Qed.
End Delivery.
