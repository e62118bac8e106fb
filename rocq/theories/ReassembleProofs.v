(** Reassembly of a heap from a consistent family of packets delivered in any
    order with any repetitions. *)
From Coq Require Import ZArith List Lia Bool.
From Coq Require Import ZifyBool ZifyNat.
From Verif Require Import Base CodecModel CodecProofs PacketSpec RecvPacketModel RecvPacketProofs
  LiveHeapModel LiveHeapSpec LiveHeapProofs LiveHeapProps.
Import ListNotations.
Open Scope Z_scope.

(** For each element of the list: is this its first occurrence? *)
Fixpoint first_time {A} (eqb : A -> A -> bool) (seen l : list A) : list bool :=
  match l with
  | [] => []
  | x :: l' => negb (existsb (eqb x) seen) :: first_time eqb (x :: seen) l'
  end.

Lemma first_time_snoc {A} (eqb : A -> A -> bool) l : forall seen x,
  first_time eqb seen (l ++ [x]) = first_time eqb seen l ++ [negb (existsb (eqb x) (rev l ++ seen))].
Proof.
  induction l as [|y l IH]; intros seen x; cbn [app first_time rev]; [reflexivity|].
  rewrite IH, <- app_assoc. reflexivity.
Qed.

Lemma add_packets_app h ooo l1 l2 :
  add_packets h ooo (l1 ++ l2) =
  match add_packets h ooo l1 with
  | None => None
  | Some (h1, bs1) =>
      match add_packets h1 ooo l2 with
      | None => None
      | Some (h2, bs2) => Some (h2, bs1 ++ bs2)
      end
  end.
Proof.
  revert h. induction l1 as [|p l1 IH]; intro h; cbn [app add_packets].
  - destruct (add_packets h ooo l2) as [[h2 bs2]|]; reflexivity.
  - destruct (add_packet h p ooo) as [| |h1]; [reflexivity| |]; rewrite IH.
    + destruct (add_packets h ooo l1) as [[h2 bs2]|]; [|reflexivity].
      destruct (add_packets h2 ooo l2) as [[h3 bs3]|]; reflexivity.
    + destruct (add_packets h1 ooo l1) as [[h2 bs2]|]; [|reflexivity].
      destruct (add_packets h2 ooo l2) as [[h3 bs3]|]; reflexivity.
Qed.

Lemma added_app pkts1 bs1 pkts2 bs2 :
  length pkts1 = length bs1 -> added (pkts1 ++ pkts2) (bs1 ++ bs2) = added pkts1 bs1 ++ added pkts2 bs2.
Proof.
  revert bs1. induction pkts1 as [|p pkts1 IH]; intros [|b bs1] HL; cbn [length] in HL; try discriminate; [reflexivity|].
  cbn [app]. destruct b.
  - rewrite !added_cons_true, IH by lia. reflexivity.
  - rewrite !added_cons_false, IH by lia. reflexivity.
Qed.

(** A consistent family of packets of one heap. *)
Record family (hab L : Z) (whole : list Z) (fam : list rpkt) : Prop := {
  fm_dec : Forall decoded fam;
  fm_hab : Forall (fun p => rp_hab p = hab) fam;
  fm_len : Forall (fun p => rp_hlen p = L) fam;
  fm_pos : Forall (fun p => 0 < rp_plen p) fam;
  fm_pay : Forall (fun p => rp_payload p = slice whole (rp_off p) (rp_plen p)) fam;
  fm_inj : forall p q, In p fam -> In q fam -> overlap p q -> p = q;
  fm_cover : forall x, 0 <= x < L -> exists p, In p fam /\ carries p x;
  fm_whole : zlen whole = L;
  fm_addr : forall p q, In p fam -> In q (rp_ptrs p) -> is_immediate q = false -> get_address hab q <= L
}.

Section Family.
  Context {hab L : Z} {whole : list Z} {fam : list rpkt} (F : family hab L whole fam).

  Lemma fam_self p : In p fam -> overlap p p.
  Proof.
    intro Hp. pose proof (fm_pos _ _ _ _ F) as HP. rewrite Forall_forall in HP. specialize (HP p Hp). cbn in HP.
    exists (rp_off p). unfold carries. split; lia.
  Qed.

  Lemma fam_L p : In p fam -> 0 <= L.
  Proof.
    intro Hp. rewrite <- (fm_whole _ _ _ _ F). apply zlen_nonneg.
  Qed.

  Lemma fam_consistent acc p : (forall q, In q acc -> In q fam) -> In p fam -> consistent hab acc p.
  Proof.
    intros Hacc Hp. pose proof (fm_hab _ _ _ _ F) as HH. pose proof (fm_len _ _ _ _ F) as HL.
    rewrite Forall_forall in HH, HL. split; [now apply HH|]. intros _ q Hq.
    pose proof (HL p Hp) as E1. pose proof (HL q (Hacc q Hq)) as E2. cbn in E1, E2. split; [right; congruence|].
    intros e He. unfold pkt_extent in He. rewrite E2 in He. pose proof (fam_L p Hp) as H0.
    destruct (0 <=? L) eqn:E; [|lia].
    destruct He as [<-|He]; [lia|]. apply in_map_iff in He as (a & <- & Ha). apply filter_In in Ha as [Ha1 Ha2].
    pose proof (HH q (Hacc q Hq)) as E3. cbn in E3. rewrite E1, E3.
    apply (fm_addr _ _ _ _ F q); [now apply Hacc|exact Ha1|now apply negb_true_iff].
  Qed.

  (** Whatever is delivered: exactly the first copies are added. *)
  Lemma family_delivery {K} (eqb : K -> K -> bool) (key : rpkt -> K) p0 ds :
    (forall p q, In p fam -> In q fam -> (eqb (key p) (key q) = true <-> p = q)) ->
    rp_hab p0 = hab -> (forall p, In p ds -> In p fam) ->
    exists h, reaches p0 true ds h (first_time eqb [] (map key ds)) /\
      (forall p, In p (added ds (first_time eqb [] (map key ds))) <-> In p ds).
  Proof.
    intros Hkey Hp0. induction ds as [|p ds IH] using rev_ind; intro Hin.
    - exists (live_heap_new p0). split; [reflexivity|]. intro p. reflexivity.
    - destruct IH as (h & HR & HA); [intros q Hq; apply Hin, in_or_app; now left|].
      assert (Hp : In p fam) by (apply Hin, in_or_app; right; now left).
      assert (Hds : forall q, In q ds -> In q fam) by (intros q Hq; apply Hin, in_or_app; now left).
      pose proof (fm_dec _ _ _ _ F) as HD.
      assert (HDs : Forall decoded ds).
      { apply Forall_forall. intros q Hq. rewrite Forall_forall in HD. apply HD. now apply Hds. }
      assert (HDp : decoded p) by (rewrite Forall_forall in HD; now apply HD).
      pose proof (reaches_inv _ _ _ _ _ HDs HR) as (_ & HLb & _).
      rewrite map_app. cbn [map]. rewrite first_time_snoc, app_nil_r.
      destruct (existsb (eqb (key p)) (rev (map key ds))) eqn:EX.
      + (* a copy *)
        assert (Hpd : In p ds).
        { apply existsb_exists in EX as (k & Hk & Hek). apply in_rev in Hk.
          apply in_map_iff in Hk as (q & <- & Hq). apply Hkey in Hek; [now subst|exact Hp|now apply Hds]. }
        exists h. cbn [negb].
        destruct (C12_overlap_rejected _ _ _ _ _ p p HDs HR HDp (proj2 (HA p) Hpd) (fam_self p Hp)) as [_ HR'].
        split; [exact HR'|]. intro q. rewrite added_app by lia.
        change (added [p] [false]) with (@nil rpkt). rewrite app_nil_r, HA, in_app_iff. cbn [In]. split; [now left|].
        intros [H|[<-|[]]]; assumption.
      + assert (Hpd : ~ In p ds).
        { intro Hq. assert (existsb (eqb (key p)) (rev (map key ds)) = true); [|congruence].
          apply existsb_exists. exists (key p). split; [apply in_rev; rewrite rev_involutive; now apply in_map|].
          now apply Hkey. }
        destruct (C50_new_data_accepted_partial p0 ds h _ p HDs HR HDp) as (h' & HAd).
        * rewrite Hp0. apply fam_consistent; [|exact Hp]. intros q Hq. apply Hds. now apply HA.
        * intros q Hq. pose proof (fm_pos _ _ _ _ F) as HP. rewrite Forall_forall in HP. apply HP, Hds. now apply HA.
        * pose proof (fm_pos _ _ _ _ F) as HP. rewrite Forall_forall in HP. now apply HP.
        * intros q Hq Ho. apply HA in Hq. apply Hpd. rewrite <- (fm_inj _ _ _ _ F q p); [exact Hq|now apply Hds|exact Hp|exact Ho].
        * exists h'. cbn [negb]. split.
          -- unfold reaches in *. rewrite add_packets_app, HR. cbn [add_packets]. now rewrite HAd.
          -- intro q. rewrite added_app by lia. change (added [p] [true]) with [p].
             rewrite !in_app_iff, HA. reflexivity.
  Qed.

  Lemma family_complete p0 ds bs h :
    rp_hab p0 = hab -> ds <> [] -> (forall p, In p ds -> In p fam) -> reaches p0 true ds h bs ->
    (forall p, In p (added ds bs) <-> In p ds) ->
    (is_complete h = true <-> forall p, In p fam -> In p ds) /\
    (is_complete h = true -> lh_min h = L /\ slice (lh_mem h) 0 L = map Some whole) /\
    (forall q, In q (lh_pointers h) <-> exists p, In p ds /\ In q (rp_ptrs p) /\ kept hab q = true).
  Proof.
    intros Hp0 Hne Hin HR HA.
    pose proof (fm_dec _ _ _ _ F) as HD.
    assert (HDs : Forall decoded ds).
    { apply Forall_forall. intros q Hq. rewrite Forall_forall in HD. apply HD. now apply Hin. }
    pose proof (fm_len _ _ _ _ F) as HL. pose proof (fm_hab _ _ _ _ F) as HH. pose proof (fm_pos _ _ _ _ F) as HP.
    rewrite Forall_forall in HL, HH, HP.
    assert (HC : is_complete h = true <-> forall p, In p fam -> In p ds).
    { rewrite (C11_complete_iff _ _ _ _ _ HDs HR). split.
      - intros (L' & (q & Hq & HqL) & H0 & Hcov & _) p Hp.
        assert (EL : L' = L) by (rewrite <- HqL; apply HL, Hin; now apply HA).
        pose proof (decoded_ok p ltac:(rewrite Forall_forall in HD; now apply HD)) as Hok.
        specialize (HP p Hp). cbn in HP. pose proof (HL p Hp) as HLp. cbn in HLp.
        pose proof (ro_off p Hok) as Ho. pose proof (ro_hlen p Hok) as Hh.
        destruct (Hcov (rp_off p) ltac:(lia)) as (r & Hr & Hc). apply HA in Hr.
        rewrite (fm_inj _ _ _ _ F p r); [exact Hr|exact Hp|now apply Hin|]. exists (rp_off p). split; [|exact Hc]. unfold carries. lia.
      - intro Hall. exists L.
        destruct ds as [|d ds']; [contradiction|].
        assert (Hd : In d fam) by (apply Hin; now left).
        split; [exists d; split; [apply HA; now left|now apply HL]|]. split; [exact (fam_L d Hd)|]. split.
        + intros x Hx. destruct (fm_cover _ _ _ _ F x Hx) as (p & Hp & Hc). exists p. split; [|exact Hc]. apply HA. now apply Hall.
        + intros p e Hp He. apply HA in Hp. destruct (fam_consistent (d :: ds') d Hin Hd) as [_ HX].
          specialize (HX ltac:(rewrite (HL d Hd); exact (fam_L d Hd)) p Hp). destruct HX as [_ HX].
          rewrite <- (HL d Hd). now apply HX. }
    split; [exact HC|].
    destruct (reaches_inv _ _ _ _ _ HDs HR) as (HI & _ & Hhh).
    split.
    - intro Hcomp. unfold is_complete in Hcomp. apply andb_true_iff in Hcomp as [C1 C2].
      apply Z.eqb_eq in C1, C2.
      assert (HLh : lh_hlen h = L).
      { destruct (hi_hlen _ _ _ HI) as [[H1 _]|(_ & (q & Hq & Hql) & _)].
        - exfalso. pose proof (hi_min _ _ _ HI). pose proof (zmax0_nonneg (flat_map pkt_extent (added ds bs))). lia.
        - rewrite <- Hql. apply HL, Hin. now apply HA. }
      assert (EM : lh_min h = L) by congruence. split; [exact EM|].
      destruct (contiguous_payload _ _ _ HI) as [Hres Hb]; [unfold is_contiguous; lia|].
      rewrite EM in Hb. rewrite EM in Hres.
      assert (HL0 : 0 <= L) by (rewrite <- (fm_whole _ _ _ _ F); apply zlen_nonneg).
      assert (EW : zlen (map Some whole) = L) by (rewrite zlen_map; exact (fm_whole _ _ _ _ F)).
      rewrite <- EW at 1. apply slice_of_znth; [lia|]. rewrite EW.
      intros i Hi. destruct (Hb i ltac:(lia)) as (p & Hp & Hc & E). rewrite Z.add_0_l, E, znth_map.
      pose proof (fm_pay _ _ _ _ F) as HPay. rewrite Forall_forall in HPay. apply HA, Hin in Hp. rewrite (HPay p Hp).
      unfold carries in Hc. pose proof (decoded_ok p ltac:(rewrite Forall_forall in HD; now apply HD)) as Hok.
      pose proof (ro_off p Hok) as Ho.
      rewrite znth_slice by lia. destruct (i - rp_off p <? rp_plen p) eqn:EI; [|lia].
      replace (rp_off p + (i - rp_off p)) with i by lia.
      destruct (znth whole i) as [v|] eqn:EV; [reflexivity|].
      exfalso. unfold znth in EV. destruct (i <? 0) eqn:E0; [lia|]. apply nth_error_None in EV.
      pose proof (fm_whole _ _ _ _ F) as HW. unfold zlen in HW. lia.
    - intro q. destruct (C13_pointers_deduplicated_in_order _ _ _ _ _ HDs HR) as (_ & _ & HQ & _).
      rewrite HQ, Hp0. split; intros (p & Hp & H); exists p; (split; [now apply HA|exact H]).
  Qed.
End Family.
