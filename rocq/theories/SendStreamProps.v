(** C34-C38 and C49: the asynchronous send stream. *)
From Coq Require Import ZArith Zpow_facts List Bool Lia Permutation Arith.
From Verif Require Import Base ConcBase SendStreamModel SendStreamSpec SendStreamBase SendStreamProofs SendStreamProofs2 SendStreamProofs3 SendStreamProofs4.
Import ListNotations.
Open Scope Z_scope.

(** *** Plain consequences of the monitor *)
Lemma on_packet_ids p last : forall gs gs', on_packet gs p last = Some gs' -> map mg_id gs' = map mg_id gs.
Proof.
  induction gs as [|g gs IH]; intros gs' H; cbn [on_packet] in H; [discriminate|]. destruct (mg_left g) as [|x l].
  - destruct (on_packet gs p last) as [r|] eqn:E; [|discriminate]. injection H as <-. cbn [map]. f_equal. now apply IH.
  - destruct (pkt_eqb x p && _); [|discriminate]. injection H as <-. reflexivity.
Qed.
Lemma on_written_ids size err last : forall gs gs', on_written gs size err last = Some gs' -> map mg_id gs' = map mg_id gs.
Proof.
  induction gs as [|g gs IH]; intros gs' H; cbn [on_written] in H; [discriminate|]. destruct (mg_out g) as [|k].
  - destruct (mg_left g); [|discriminate]. destruct (on_written gs size err last) as [r|] eqn:E; [|discriminate]. injection H as <-. cbn [map]. f_equal. now apply IH.
  - destruct (Bool.eqb last _); [|discriminate]. injection H as <-. reflexivity.
Qed.
Lemma pkt_eqb_eq a b : pkt_eqb a b = true -> a = b.
Proof.
  unfold pkt_eqb. destruct a as [[a1 a2] a3], b as [[b1 b2] b3]. cbn [fst snd p_id p_size]. intro H. apply andb_prop in H as [H H3]. apply andb_prop in H as [H1 H2].
  apply Z.eqb_eq in H1, H2, H3. now subst.
Qed.

Ltac mon_inv H :=
  cbn [smon_run] in H;
  match type of H with match smon_step ?n ?m ?e with _ => _ end = _ => destruct (smon_step n m e) as [m1|] eqn:S1; [|discriminate] end.

Lemma mon_order nsub : forall l m m', smon_run nsub m l = Some m' -> map mg_id (sm_groups m) ++ accepted_ids l = done_ids l ++ map mg_id (sm_groups m').
Proof.
  induction l as [|e l IH]; intros m m' H; [injection H as <-; apply app_nil_r|]. mon_inv H. specialize (IH _ _ H).
  destruct e; cbn [smon_step] in S1; cbn [accepted_ids done_ids].
  - destruct hs as [|h hs]; [discriminate|]. destruct (on_cnts _ _ _); [|discriminate]. destruct (forallb _ _); [|discriminate]. injection S1 as <-. cbn [sm_groups] in IH.
    rewrite map_app, <- app_assoc in IH. exact IH.
  - injection S1 as <-. exact IH.
  - destruct (on_packet _ _ _) as [gs|] eqn:O; [|discriminate]. injection S1 as <-. cbn [sm_groups] in IH. now rewrite (on_packet_ids _ _ _ _ O) in IH.
  - destruct (on_written _ _ _ _) as [gs|] eqn:O; [|discriminate]. injection S1 as <-. cbn [sm_groups] in IH. now rewrite (on_written_ids _ _ _ _ _ O) in IH.
  - destruct (sm_groups m) as [|g gs]; [discriminate|]. destruct (sent g && (id =? mg_id g) && (err =? mg_err g) && (bytes =? mg_bytes g)) eqn:C; [|discriminate]. injection S1 as <-.
    apply andb_prop in C as [C _]. apply andb_prop in C as [C _]. apply andb_prop in C as [_ C]. apply Z.eqb_eq in C. cbn [sm_groups map app] in *. now rewrite IH, C.
  - destruct (remove_first _ _); [|discriminate]. injection S1 as <-. exact IH.
  - injection S1 as <-. exact IH.
  - destruct (if waited then _ else _); [|discriminate]. injection S1 as <-. exact IH.
  - injection S1 as <-. exact IH.
Qed.

Lemma remove_first_perm x : forall l r, remove_first x l = Some r -> Permutation l (x :: r).
Proof.
  induction l as [|y l IH]; intros r H; cbn [remove_first] in H; [discriminate|]. destruct ((fst x =? fst y) && (snd x =? snd y)) eqn:E.
  - injection H as <-. apply andb_prop in E as [E1 E2]. apply Z.eqb_eq in E1, E2. destruct x, y. cbn [fst snd] in *. subst. reflexivity.
  - destruct (remove_first x l) as [r'|]; [|discriminate]. injection H as <-. rewrite (IH r' eq_refl). apply perm_swap.
Qed.
Lemma mon_rejected nsub : forall l m m', smon_run nsub m l = Some m' -> Permutation (sm_rejected m ++ rejections l) (failures l ++ sm_rejected m').
Proof.
  induction l as [|e l IH]; intros m m' H; [injection H as <-; rewrite app_nil_r; reflexivity|]. mon_inv H. specialize (IH _ _ H).
  destruct e; cbn [smon_step] in S1; cbn [rejections failures].
  - destruct hs as [|h hs]; [discriminate|]. destruct (on_cnts _ _ _); [|discriminate]. destruct (forallb _ _); [|discriminate]. injection S1 as <-. exact IH.
  - injection S1 as <-. cbn [sm_rejected] in IH. rewrite <- app_assoc in IH. exact IH.
  - destruct (on_packet _ _ _); [|discriminate]. injection S1 as <-. exact IH.
  - destruct (on_written _ _ _ _); [|discriminate]. injection S1 as <-. exact IH.
  - destruct (sm_groups m); [discriminate|]. destruct (_ && _); [|discriminate]. injection S1 as <-. exact IH.
  - destruct (remove_first (id, err) (sm_rejected m)) as [r|] eqn:E; [|discriminate]. injection S1 as <-. cbn [sm_rejected] in IH. rewrite (remove_first_perm _ _ _ E). cbn [app]. now constructor.
  - injection S1 as <-. exact IH.
  - destruct (if waited then _ else _); [|discriminate]. injection S1 as <-. exact IH.
  - injection S1 as <-. exact IH.
Qed.

(** Packets, with the flag. *)
Fixpoint mark {A} (l : list A) : list (A * bool) :=
  match l with [] => [] | x :: l' => (x, match l' with [] => true | _ => false end) :: mark l' end.
Fixpoint to_send_marked (l : list sev) : list (pkt * Z * bool) :=
  match l with
  | EAccept _ mode hs :: l' => mark (group_order mode (map (fun h => heap_packets (fst h)) hs)) ++ to_send_marked l'
  | _ :: l' => to_send_marked l'
  | [] => []
  end.
Fixpoint packets_marked (l : list sev) : list (pkt * Z * bool) :=
  match l with EPacket p sub last :: l' => (p, sub, last) :: packets_marked l' | _ :: l' => packets_marked l' | [] => [] end.
Fixpoint written (l : list sev) : nat :=
  match l with EWritten _ _ _ :: l' => S (written l') | _ :: l' => written l' | [] => O end.

Definition left_of (gs : list mgroup) : list (pkt * Z * bool) := flat_map (fun g => mark (mg_left g)) gs.
Definition outs (gs : list mgroup) : nat := sumw mg_out gs.
Lemma on_packet_left p last : forall gs gs', on_packet gs p last = Some gs' -> left_of gs = (p, last) :: left_of gs' /\ outs gs' = S (outs gs).
Proof.
  induction gs as [|g gs IH]; intros gs' H; cbn [on_packet] in H; [discriminate|]. unfold left_of, outs in *. cbn [flat_map sumw]. destruct (mg_left g) as [|x l] eqn:L.
  - destruct (on_packet gs p last) as [r|] eqn:E; [|discriminate]. injection H as <-. destruct (IH r eq_refl) as [I1 I2]. cbn [flat_map sumw mark app]. rewrite L. cbn [mark app]. split; [exact I1|lia].
  - destruct (pkt_eqb x p && Bool.eqb last match l with [] => true | _ => false end) eqn:C; [|discriminate]. injection H as <-. apply andb_prop in C as [C1 C2]. apply pkt_eqb_eq in C1. apply Bool.eqb_prop in C2.
    subst x. cbn [flat_map sumw mark app mg_left mg_out]. rewrite <- C2. split; [reflexivity|lia].
Qed.
Lemma on_written_left size err last : forall gs gs', on_written gs size err last = Some gs' -> left_of gs' = left_of gs /\ outs gs = S (outs gs').
Proof.
  induction gs as [|g gs IH]; intros gs' H; cbn [on_written] in H; [discriminate|]. unfold left_of, outs in *. cbn [flat_map sumw]. destruct (mg_out g) as [|k] eqn:L.
  - destruct (mg_left g) eqn:ML; [|discriminate]. destruct (on_written gs size err last) as [r|] eqn:E; [|discriminate]. injection H as <-. destruct (IH r eq_refl) as [I1 I2]. cbn [flat_map sumw]. rewrite ML, L, I1. split; [reflexivity|lia].
  - destruct (Bool.eqb last _); [|discriminate]. injection H as <-. cbn [flat_map sumw mg_left mg_out]. split; [reflexivity|lia].
Qed.
Lemma sent_left g : sent g = true -> mg_left g = [] /\ mg_out g = O.
Proof. unfold sent. destruct (mg_left g), (mg_out g); try discriminate; auto. Qed.

Lemma mon_packets nsub : forall l m m', smon_run nsub m l = Some m' ->
  left_of (sm_groups m) ++ to_send_marked l = packets_marked l ++ left_of (sm_groups m')
  /\ (outs (sm_groups m) + length (packets_marked l) = written l + outs (sm_groups m'))%nat.
Proof.
  induction l as [|e l IH]; intros m m' H; [injection H as <-; rewrite app_nil_r; split; [reflexivity|cbn [packets_marked written length]; lia]|]. mon_inv H. specialize (IH _ _ H).
  destruct e; cbn [smon_step] in S1; cbn [to_send_marked packets_marked written].
  - destruct hs as [|h hs]; [discriminate|]. destruct (on_cnts _ _ _); [|discriminate]. destruct (forallb _ _); [|discriminate]. injection S1 as <-. cbn [sm_groups] in IH.
    unfold left_of, outs in *. rewrite flat_map_app, sumw_app in IH. cbn [flat_map sumw mg_left mg_out] in IH. rewrite app_nil_r, <- app_assoc in IH. destruct IH as [I1 I2]. split; [exact I1|lia].
  - injection S1 as <-. exact IH.
  - destruct (on_packet _ _ _) as [gs|] eqn:O; [|discriminate]. injection S1 as <-. cbn [sm_groups] in IH. destruct (on_packet_left _ _ _ _ O) as [O1 O2]. destruct IH as [I1 I2].
    rewrite O1. cbn [app length]. split; [now rewrite I1|lia].
  - destruct (on_written _ _ _ _) as [gs|] eqn:O; [|discriminate]. injection S1 as <-. cbn [sm_groups] in IH. destruct (on_written_left _ _ _ _ _ O) as [O1 O2]. destruct IH as [I1 I2].
    rewrite <- O1. split; [exact I1|lia].
  - destruct (sm_groups m) as [|g gs] eqn:GM; [discriminate|]. destruct (sent g && (id =? mg_id g) && (err =? mg_err g) && (bytes =? mg_bytes g)) eqn:C; [|discriminate]. injection S1 as <-.
    apply andb_prop in C as [C _]. apply andb_prop in C as [C _]. apply andb_prop in C as [C _]. apply sent_left in C as [C1 C2]. cbn [sm_groups] in IH. unfold left_of, outs in *. cbn [flat_map sumw].
    rewrite C1, C2. exact IH.
  - destruct (remove_first _ _); [|discriminate]. injection S1 as <-. exact IH.
  - injection S1 as <-. exact IH.
  - destruct (if waited then _ else _); [|discriminate]. injection S1 as <-. exact IH.
  - injection S1 as <-. exact IH.
Qed.

Lemma mark_fst {A} (l : list A) : map fst (mark l) = l.
Proof. induction l as [|x l IH]; cbn [mark map fst]; [reflexivity|]. now rewrite IH. Qed.
Lemma mark_length {A} (l : list A) : length (mark l) = length l.
Proof. induction l as [|x l IH]; cbn [mark length]; auto. Qed.
Lemma packets_marked_fst l : map fst (packets_marked l) = packets l.
Proof. induction l as [|e l IH]; [reflexivity|]. destruct e; cbn [packets_marked packets map fst]; auto. now rewrite IH. Qed.
Lemma to_send_marked_fst l : map fst (to_send_marked l) = to_send l.
Proof. induction l as [|e l IH]; [reflexivity|]. destruct e; cbn [to_send_marked to_send]; auto. now rewrite map_app, mark_fst, IH. Qed.
(** The flag marks the last element and only it. *)
Lemma mark_spec {A} (l : list A) i x b : nth_error (mark l) i = Some (x, b) -> b = Nat.eqb (S i) (length l).
Proof.
  revert i. induction l as [|y l IH]; intros i H; [destruct i; discriminate|]. destruct i as [|i]; cbn [mark nth_error length] in *.
  - injection H as _ <-. destruct l; reflexivity.
  - rewrite (IH i H). reflexivity.
Qed.
(** Nothing is lost or duplicated by the interleaving. *)
Lemma column_step {A} : forall (hs : list (list A)) r, column (S r) hs = column r (map (skipn 1) hs).
Proof. induction hs as [|h hs IH]; intro r; [reflexivity|]. unfold column in *. cbn [map flat_map]. rewrite IH. destruct h; cbn [skipn]; [destruct r|]; reflexivity. Qed.
Lemma column_perm {A} : forall (hs : list (list A)), Permutation (concat hs) (column 0 hs ++ concat (map (skipn 1) hs)).
Proof.
  induction hs as [|h hs IH]; [reflexivity|]. unfold column in *. cbn [map flat_map concat]. destruct h as [|x h]; cbn [skipn firstn app]; [exact IH|].
  constructor. rewrite IH, !app_assoc. apply Permutation_app_tail, Permutation_app_comm.
Qed.
Lemma columns_perm {A} : forall n (hs : list (list A)), (max_len hs <= n)%nat -> Permutation (concat hs) (flat_map (fun r => column r hs) (seq 0 n)).
Proof.
  induction n as [|n IH]; intros hs H.
  - cbn [seq flat_map]. replace (concat hs) with (@nil A); [reflexivity|]. unfold max_len in H. induction hs as [|h hs IH2]; [reflexivity|]. cbn [map list_max fold_right concat] in *.
    destruct h; cbn [length] in H; [apply IH2; unfold list_max in *; lia|lia].
  - cbn [seq flat_map]. rewrite column_perm. apply Permutation_app_head. rewrite <- seq_shift, flat_map_concat_map, map_map.
    rewrite (map_ext _ (fun r => column r (map (skipn 1) hs))) by (intro r; apply column_step). rewrite <- (flat_map_concat_map (fun r => column r (map (skipn 1) hs))). apply IH.
    unfold max_len in *. clear IH. induction hs as [|h hs IH]; [cbn; lia|]. cbn [map list_max fold_right] in *. fold (list_max (map (@length A) hs)) in H.
    fold (list_max (map (@length A) (map (skipn 1) hs))). specialize (IH ltac:(lia)). rewrite skipn_length. lia.
Qed.
Lemma group_order_perm {A} mode (hs : list (list A)) : Permutation (group_order mode hs) (concat hs).
Proof. destruct mode; [|reflexivity]. symmetry. now apply columns_perm. Qed.

(** Automatic cnts *)
Fixpoint no_setseq (l : list sev) : Prop := match l with [] => True | ESetSeq _ _ :: _ => False | _ :: l' => no_setseq l' end.
Definition autos (hs : list (heap_ref * Z)) : list (Z * Z) := flat_map (fun h => if h_cnt (fst h) <? 0 then [(snd h, h_hab (fst h))] else []) hs.
Lemma on_cnts_autos step : forall hs next next', 0 <= next < 2 ^ 64 -> on_cnts next step hs = Some next' -> 0 <= next' < 2 ^ 64
  /\ next' = (next + Z.of_nat (length (autos hs)) * step) mod 2 ^ 64
  /\ forall i c hab, nth_error (autos hs) i = Some (c, hab) -> c = ((next + Z.of_nat i * step) mod 2 ^ 64) mod 2 ^ hab.
Proof.
  induction hs as [|[h c] hs IH]; intros next next' N H; cbn [on_cnts] in H.
  - injection H as <-. split; [exact N|]. split; [cbn [autos flat_map length]; change (Z.of_nat 0) with 0; rewrite Z.mul_0_l, Z.add_0_r, Z.mod_small; auto|]. intros i ? ? Hi. destruct i; discriminate.
  - unfold autos in *. cbn [flat_map fst snd]. destruct (Z.ltb_spec (h_cnt h) 0) as [A|A].
    + destruct (Z.eqb_spec c (next mod 2 ^ h_hab h)) as [E|]; [|discriminate]. destruct (IH _ _ (Z.mod_pos_bound (next + step) (2 ^ 64) ltac:(lia)) H) as (I1 & I2 & I3). split; [exact I1|].
      cbn [app length]. split.
      * rewrite I2, Zplus_mod_idemp_l. f_equal. lia.
      * intros i c' hab Hi. destruct i as [|i]; cbn [nth_error] in Hi.
        -- injection Hi as <- <-. change (Z.of_nat 0) with 0. rewrite Z.mul_0_l, Z.add_0_r, (Z.mod_small next) by exact N. exact E.
        -- rewrite (I3 i c' hab Hi), Zplus_mod_idemp_l. f_equal. f_equal. lia.
    + destruct ((c =? h_cnt h) && (c <? 2 ^ h_hab h)); [|discriminate]. cbn [app]. now apply IH.
Qed.
Lemma mon_cnts nsub : forall l m m', smon_run nsub m l = Some m' -> no_setseq l -> 0 <= sm_next m < 2 ^ 64 ->
  forall i c hab, nth_error (auto_cnts l) i = Some (c, hab) -> c = ((sm_next m + Z.of_nat i * sm_step m) mod 2 ^ 64) mod 2 ^ hab.
Proof.
  induction l as [|e l IH]; intros m m' H NS N i c hab Hi; [destruct i; discriminate|]. mon_inv H. specialize (IH _ _ H).
  destruct e; cbn [smon_step] in S1; cbn [auto_cnts no_setseq] in *.
  - destruct hs as [|h hs]; [discriminate|]. destruct (on_cnts (sm_next m) (sm_step m) (h :: hs)) as [next|] eqn:OC; [|discriminate]. destruct (forallb _ _); [|discriminate]. injection S1 as <-. cbn [sm_next sm_step] in IH.
    destruct (on_cnts_autos _ _ _ _ N OC) as (N' & E & F). fold (autos (h :: hs)) in Hi. destruct (Nat.lt_ge_cases i (length (autos (h :: hs)))) as [Li|Li].
    + rewrite nth_error_app1 in Hi by exact Li. now apply F.
    + rewrite nth_error_app2 in Hi by exact Li. rewrite (IH NS N' _ c hab Hi), E, Zplus_mod_idemp_l. f_equal. f_equal. rewrite Nat2Z.inj_sub by exact Li. ring.
  - injection S1 as <-. now apply IH.
  - destruct (on_packet _ _ _); [|discriminate]. injection S1 as <-. now apply IH.
  - destruct (on_written _ _ _ _); [|discriminate]. injection S1 as <-. now apply IH.
  - destruct (sm_groups m); [discriminate|]. destruct (_ && _); [|discriminate]. injection S1 as <-. now apply IH.
  - destruct (remove_first _ _); [|discriminate]. injection S1 as <-. now apply IH.
  - injection S1 as <-. now apply IH.
  - destruct (if waited then _ else _); [|discriminate]. injection S1 as <-. now apply IH.
  - destruct NS.
Qed.

(** Counters and flush targets *)
Lemma mon_counts nsub : forall l m m', smon_run nsub m l = Some m' ->
  (sm_accepted m' = sm_accepted m + length (accepted_ids l))%nat /\ (sm_done m' = sm_done m + length (done_ids l))%nat.
Proof.
  induction l as [|e l IH]; intros m m' H; [injection H as <-; cbn [accepted_ids done_ids length]; lia|]. mon_inv H. destruct (IH _ _ H) as [I1 I2].
  destruct e; cbn [smon_step] in S1; cbn [accepted_ids done_ids length].
  - destruct hs as [|h hs]; [discriminate|]. destruct (on_cnts _ _ _); [|discriminate]. destruct (forallb _ _); [|discriminate]. injection S1 as <-. cbn [sm_accepted sm_done] in *. lia.
  - injection S1 as <-. auto.
  - destruct (on_packet _ _ _); [|discriminate]. injection S1 as <-. auto.
  - destruct (on_written _ _ _ _); [|discriminate]. injection S1 as <-. auto.
  - destruct (sm_groups m); [discriminate|]. destruct (_ && _); [|discriminate]. injection S1 as <-. cbn [sm_accepted sm_done] in *. lia.
  - destruct (remove_first _ _); [|discriminate]. injection S1 as <-. auto.
  - injection S1 as <-. auto.
  - destruct (if waited then _ else _); [|discriminate]. injection S1 as <-. auto.
  - injection S1 as <-. auto.
Qed.
Lemma mon_target nsub t : forall l m m', smon_run nsub m l = Some m' -> ~ In (EFlushCall t) l -> sm_target m' t = sm_target m t.
Proof.
  induction l as [|e l IH]; intros m m' H NI; [now injection H as <-|]. mon_inv H. rewrite (IH _ _ H) by (intro X; apply NI; now right).
  destruct e; cbn [smon_step] in S1.
  - destruct hs as [|h hs]; [discriminate|]. destruct (on_cnts _ _ _); [|discriminate]. destruct (forallb _ _); [|discriminate]. now injection S1 as <-.
  - now injection S1 as <-.
  - destruct (on_packet _ _ _); [|discriminate]. now injection S1 as <-.
  - destruct (on_written _ _ _ _); [|discriminate]. now injection S1 as <-.
  - destruct (sm_groups m); [discriminate|]. destruct (_ && _); [|discriminate]. now injection S1 as <-.
  - destruct (remove_first _ _); [|discriminate]. now injection S1 as <-.
  - injection S1 as <-. cbn [sm_target]. destruct (Nat.eqb_spec t t0) as [E|]; [subst; destruct NI; now left|reflexivity].
  - destruct (if waited then _ else _); [|discriminate]. now injection S1 as <-.
  - now injection S1 as <-.
Qed.
Lemma accepted_ids_app l1 l2 : accepted_ids (l1 ++ l2) = accepted_ids l1 ++ accepted_ids l2.
Proof. induction l1 as [|e l IH]; [reflexivity|]. destruct e; cbn [app accepted_ids]; rewrite ?IH; reflexivity. Qed.
Lemma done_ids_app l1 l2 : done_ids (l1 ++ l2) = done_ids l1 ++ done_ids l2.
Proof. induction l1 as [|e l IH]; [reflexivity|]. destruct e; cbn [app done_ids]; rewrite ?IH; reflexivity. Qed.
Fixpoint group_sizes (l : list sev) : list nat :=
  match l with
  | EAccept _ mode hs :: l' => length (group_order mode (map (fun h => heap_packets (fst h)) hs)) :: group_sizes l'
  | _ :: l' => group_sizes l'
  | [] => []
  end.
Definition within (g : mgroup) (z : nat) : Prop := (length (mg_left g) + mg_out g <= z)%nat.
Lemma on_packet_within p last : forall gs zs gs', Forall2 within gs zs -> on_packet gs p last = Some gs' -> Forall2 within gs' zs.
Proof.
  induction gs as [|g gs IH]; intros zs gs' F H; cbn [on_packet] in H; [discriminate|]. inversion F as [|? z ? zs' Fg Fr]; subst. destruct (mg_left g) as [|x l] eqn:L.
  - destruct (on_packet gs p last) as [r|] eqn:E; [|discriminate]. injection H as <-. constructor; auto.
  - destruct (pkt_eqb x p && _); [|discriminate]. injection H as <-. constructor; auto. unfold within in *. rewrite L in Fg. cbn [mg_left mg_out length] in *. lia.
Qed.
Lemma on_written_within size err last : forall gs zs gs', Forall2 within gs zs -> on_written gs size err last = Some gs' -> Forall2 within gs' zs.
Proof.
  induction gs as [|g gs IH]; intros zs gs' F H; cbn [on_written] in H; [discriminate|]. inversion F as [|? z ? zs' Fg Fr]; subst. destruct (mg_out g) as [|k] eqn:L.
  - destruct (mg_left g); [|discriminate]. destruct (on_written gs size err last) as [r|] eqn:E; [|discriminate]. injection H as <-. constructor; auto.
  - destruct (Bool.eqb last _); [|discriminate]. injection H as <-. constructor; auto. unfold within in *. rewrite L in Fg. cbn [mg_left mg_out] in *. lia.
Qed.
Lemma mon_within nsub : forall l m m' zs, smon_run nsub m l = Some m' -> Forall2 within (sm_groups m) zs -> Forall2 within (sm_groups m') (skipn (length (done_ids l)) (zs ++ group_sizes l)).
Proof.
  induction l as [|e l IH]; intros m m' zs H F; [injection H as <-; cbn [done_ids group_sizes length skipn]; now rewrite app_nil_r|]. mon_inv H.
  destruct e; cbn [smon_step] in S1; cbn [done_ids group_sizes length].
  - destruct hs as [|h hs]; [discriminate|]. destruct (on_cnts _ _ _); [|discriminate]. destruct (forallb _ _); [|discriminate]. injection S1 as <-.
    specialize (IH _ _ (zs ++ [length (group_order mode (map (fun h => heap_packets (fst h)) (h :: hs)))]) H). rewrite <- app_assoc in IH. apply IH. cbn [sm_groups]. apply Forall2_app; [exact F|].
    constructor; [|constructor]. unfold within. cbn [mg_left mg_out]. rewrite Nat.add_0_r. apply Nat.le_refl.
  - injection S1 as <-. now apply (IH _ _ zs H).
  - destruct (on_packet _ _ _) as [gs|] eqn:O; [|discriminate]. injection S1 as <-. apply (IH _ _ zs H). cbn [sm_groups]. eapply on_packet_within; eauto.
  - destruct (on_written _ _ _ _) as [gs|] eqn:O; [|discriminate]. injection S1 as <-. apply (IH _ _ zs H). cbn [sm_groups]. eapply on_written_within; eauto.
  - destruct (sm_groups m) as [|g gs]; [discriminate|]. destruct (_ && _); [|discriminate]. injection S1 as <-. inversion F as [|? z ? zs' Fg Fr]; subst. cbn [app skipn]. now apply (IH _ _ zs' H).
  - destruct (remove_first _ _); [|discriminate]. injection S1 as <-. now apply (IH _ _ zs H).
  - injection S1 as <-. now apply (IH _ _ zs H).
  - destruct (if waited then _ else _); [|discriminate]. injection S1 as <-. now apply (IH _ _ zs H).
  - injection S1 as <-. now apply (IH _ _ zs H).
Qed.
Lemma group_sizes_total l : length (to_send_marked l) = list_sum (group_sizes l).
Proof. induction l as [|e l IH]; [reflexivity|]. destruct e; cbn [to_send_marked group_sizes]; auto. rewrite app_length, mark_length. cbn [list_sum fold_right]. fold (list_sum (group_sizes l)). lia. Qed.
Lemma left_outs_le : forall gs zs, Forall2 within gs zs -> (length (left_of gs) + outs gs <= list_sum zs)%nat.
Proof.
  intros gs zs F. induction F as [|g z gs zs Fg _ IH]; [cbn; lia|]. unfold left_of, outs in *. cbn [flat_map sumw list_sum fold_right]. fold (list_sum zs). rewrite app_length, mark_length. unfold within in Fg. lia.
Qed.

Section C34.
Variables (size nsub : Z) (n : nat).
Hypothesis Hsize : 1 <= size <= 2 ^ 63.
Let s0 := stream_new size nsub n.

(** *** C34 *)
(** The log of every execution satisfies the specification: the handler of every
    accepted request is called once, after its packets have been written, with
    the number of bytes and the first error; requests are accepted with all
    their heaps; and so on. *)
Theorem C34_monitor_partial s tr : s_reach s0 s tr -> clean tr -> exists m, smon_run nsub smon0 tr = Some m.
Proof. intros R C. destruct (sinv_reach size nsub n s tr Hsize R C) as (m & M & _). eauto. Qed.
(** Handlers of accepted requests are called in order of acceptance, each at most once. *)
Theorem C34_order_partial s tr : s_reach s0 s tr -> clean tr -> exists pending, accepted_ids tr = done_ids tr ++ pending.
Proof.
  intros R C. destruct (C34_monitor_partial s tr R C) as (m & M). exists (map mg_id (sm_groups m)). apply mon_order in M. exact M.
Qed.
(** Not before every packet of its request, and of the requests before it, has been written. *)
Theorem C34_written_partial s tr id err bytes : s_reach s0 s (tr ++ [EDone id err bytes]) -> clean tr ->
  (list_sum (firstn (S (length (done_ids tr))) (group_sizes tr)) <= written tr)%nat.
Proof.
  intros R C. assert (C' : clean (tr ++ [EDone id err bytes])) by (intros i e k K; apply in_app_or in K as [K|[K|[]]]; [eapply C; eauto|discriminate]).
  destruct (C34_monitor_partial s _ R C') as (m' & M). rewrite smon_run_app in M. destruct (smon_run nsub smon0 tr) as [m|] eqn:M1; [|discriminate].
  cbn [smon_run smon_step] in M. pose proof (mon_within nsub tr smon0 m [] M1 ltac:(constructor)) as W. cbn [app] in W.
  destruct (sm_groups m) as [|g gs] eqn:GM; [discriminate|]. destruct (sent g && _ && _ && _) eqn:S; [|discriminate]. apply andb_prop in S as [S _]. apply andb_prop in S as [S _]. apply andb_prop in S as [S _].
  apply sent_left in S as [S1 S2]. destruct (skipn (length (done_ids tr)) (group_sizes tr)) as [|z zs] eqn:SK; [inversion W|]. inversion W as [|? ? ? ? _ Wr]; subst.
  destruct (mon_packets nsub tr smon0 m M1) as [P1 P2]. rewrite GM in *. unfold left_of, outs in P1, P2. cbn [flat_map sumw smon0 sm_groups app] in P1, P2. rewrite S1, S2 in *. cbn [mark app] in P1.
  apply (f_equal (@length _)) in P1. rewrite app_length, group_sizes_total in P1. apply left_outs_le in Wr. unfold left_of, outs in Wr.
  rewrite <- (firstn_skipn (S (length (done_ids tr))) (group_sizes tr)), list_sum_app in P1.
  assert (SK' : skipn (S (length (done_ids tr))) (group_sizes tr) = zs).
  { clear - SK. revert SK. generalize (group_sizes tr). induction (length (done_ids tr)) as [|k IH]; intros l SK; destruct l as [|y l]; try discriminate; cbn [skipn] in *; [now injection SK as _ <-|now apply IH]. }
  rewrite SK' in P1. lia.
Qed.
(** Handlers of rejected requests: each once. *)
Theorem C34_rejected_partial s tr : s_reach s0 s tr -> clean tr -> exists pending, Permutation (rejections tr) (failures tr ++ pending).
Proof.
  intros R C. destruct (C34_monitor_partial s tr R C) as (m & M). exists (sm_rejected m). apply mon_rejected in M. exact M.
Qed.
(** At any time, the queue holds at most max_heaps heaps. *)
Theorem C34_capacity_partial s tr : s_reach s0 s tr -> clean tr -> 0 <= w64 (s_tail s - s_head s) <= size.
Proof.
  intros R C. destruct (sinv_reach size nsub n s tr Hsize R C) as (m & _ & (p & h & gF & gI & gM & gN & pend & [Q _ _ _ _]) & _ & E).
  pose proof (qi_cap _ _ _ _ _ _ _ _ _ _ _ _ _ Q) as QC. rewrite (qi_tail _ _ _ _ _ _ _ _ _ _ _ _ _ Q), (qi_head _ _ _ _ _ _ _ _ _ _ _ _ _ Q), w64_sub2. rewrite E in QC.
  pose proof (glen_nonneg (gF ++ gI ++ gM ++ gN)). replace (h + glen (gF ++ gI ++ gM ++ gN) - h) with (glen (gF ++ gI ++ gM ++ gN)) by lia. assert (2 ^ 63 < 2 ^ 64) by reflexivity. rewrite w64_small; lia.
Qed.
(** No execution gets to undefined behaviour: no step uses a queue slot that does
    not hold an item, constructs over one or runs two wakeups at a time. *)
Theorem C34_safe_partial s tr l : s_reach s0 s tr -> clean tr -> s_step_fn s l <> Fault.
Proof.
  intros R C. destruct (sinv_reach size nsub n s tr Hsize R C) as (m & _ & I & _). pose proof (step_good s m l I) as G. intro E. now rewrite E in G.
Qed.

(** *** C35 *)
Theorem C35_order_partial s tr : s_reach s0 s tr -> clean tr ->
  exists rest, to_send tr = packets tr ++ rest /\ exists rest', to_send_marked tr = packets_marked tr ++ rest'.
Proof.
  intros R C. destruct (C34_monitor_partial s tr R C) as (m & M). destruct (mon_packets nsub tr smon0 m M) as [P _]. cbn [smon0 sm_groups left_of flat_map app] in P.
  exists (map fst (left_of (sm_groups m))). split; [|exists (left_of (sm_groups m)); exact P]. apply (f_equal (map fst)) in P. rewrite map_app, to_send_marked_fst, packets_marked_fst in P. exact P.
Qed.
(** What [mark] and [group_order] mean. *)
Theorem C35_last {A} (l : list A) i x b : nth_error (mark l) i = Some (x, b) -> (b = true <-> S i = length l).
Proof. intro H. rewrite (mark_spec l i x b H). apply Nat.eqb_eq. Qed.
Theorem C35_once {A} mode (hs : list (list A)) : Permutation (group_order mode hs) (concat hs).
Proof. apply group_order_perm. Qed.

(** *** C36 *)
Definition awake (s : sst) : Prop := w_pc (s_w s) <> WIdle \/ (0 < s_posted s)%nat \/ exists t, nth_error (s_threads s) t = Some UWake.
Theorem C36_no_lost_wakeup_partial s tr : s_reach s0 s tr -> clean tr -> accepted_ids tr <> done_ids tr -> awake s.
Proof.
  intros R C NE. destruct (sinv_reach size nsub n s tr Hsize R C) as (m & M & (p & h & gF & gI & gM & gN & pend & [Q L T Mi [K1 K2]]) & _).
  unfold awake. destruct (w_pc (s_w s)) eqn:PC; [|left; discriminate|left; discriminate]. destruct (s_posted s) eqn:PO; [|right; left; lia]. right. right.
  assert (ND : s_need s <> true).
  { intro N. specialize (K2 N). apply NE. pose proof (mon_order nsub tr smon0 m M) as O. destruct Mi as [M1 _ _ _ _]. rewrite M1, K2 in O. cbn [smon0 sm_groups map app pc_hs] in O. now rewrite app_nil_r in O. }
  destruct (s_need s); [congruence|]. cbn [busy] in K1. assert (W : (0 < sumw wakew (s_threads s))%nat) by lia. apply sumw_pos in W as (t & q & W1 & W2). exists t. rewrite W1. now destruct q; cbn [wakew] in W2; try lia.
Qed.
(** The destructor (send_stream.cpp:92-107) waits for need_wakeup: then every
    handler has been called and nothing refers to the stream any more. *)
Theorem C36_quiescent_partial s tr : s_reach s0 s tr -> clean tr -> s_need s = true ->
  accepted_ids tr = done_ids tr /\ w_pc (s_w s) = WIdle /\ s_posted s = O /\ (forall t, nth_error (s_threads s) t <> Some UWake) /\ s_head s = s_tail s
  /\ to_send tr = packets tr /\ written tr = length (packets tr).
Proof.
  intros R C N. destruct (sinv_reach size nsub n s tr Hsize R C) as (m & M & (p & h & gF & gI & gM & gN & pend & [Q L T Mi [K1 K2]]) & _). specialize (K2 N). rewrite N in K1.
  destruct (mon_packets nsub tr smon0 m M) as [P1 P2]. pose proof (mon_order nsub tr smon0 m M) as O. destruct Mi as [M1 _ _ _ _]. rewrite K2 in *.
  assert (PC : w_pc (s_w s) = WIdle) by (destruct (w_pc (s_w s)); cbn [busy] in K1; [reflexivity|lia|lia]). rewrite PC in *. cbn [pc_hs map app] in M1. rewrite M1 in *.
  cbn [smon0 sm_groups map app left_of flat_map outs sumw] in *. rewrite app_nil_r in *. split; [exact O|]. split; [reflexivity|]. split; [lia|]. split; [|split; [|split]].
  - intros t Ht. pose proof (sumw_ge wakew _ t _ Ht) as G. cbn [wakew] in G. lia.
  - rewrite (qi_tail _ _ _ _ _ _ _ _ _ _ _ _ _ Q), (qi_head _ _ _ _ _ _ _ _ _ _ _ _ _ Q), K2, glen_nil, Z.add_0_r. reflexivity.
  - apply (f_equal (map fst)) in P1. now rewrite to_send_marked_fst, packets_marked_fst in P1.
  - rewrite <- packets_marked_fst, map_length. lia.
Qed.

(** *** C37 *)
(** A flush() that had to wait returns after the handlers of everything accepted before the call. *)
Theorem C37_waited_partial s t tr1 tr2 : s_reach s0 s (tr1 ++ EFlushCall t :: tr2 ++ [EFlushReturn t true]) -> clean (tr1 ++ tr2) -> ~ In (EFlushCall t) tr2 ->
  exists more, done_ids (tr1 ++ tr2) = accepted_ids tr1 ++ more.
Proof.
  intros R C NI. assert (C' : clean (tr1 ++ EFlushCall t :: tr2 ++ [EFlushReturn t true])).
  { intros i e k K. apply (C i e k). apply in_app_or in K as [K|[K|K]]; [apply in_or_app; auto|discriminate|]. apply in_app_or in K as [K|[K|[]]]; [apply in_or_app; auto|discriminate]. }
  destruct (C34_monitor_partial s _ R C') as (m' & M). rewrite smon_run_app in M. destruct (smon_run nsub smon0 tr1) as [m1|] eqn:M1; [|discriminate]. cbn [smon_run smon_step] in M.
  rewrite smon_run_app in M. set (m2 := {| sm_groups := sm_groups m1; sm_rejected := _; sm_accepted := _; sm_done := _; sm_target := _; sm_next := _; sm_step := _ |}) in M.
  destruct (smon_run nsub m2 tr2) as [m3|] eqn:M2; [|discriminate]. cbn [smon_run smon_step] in M. destruct (Nat.leb_spec (sm_target m3 t) (sm_done m3)) as [LE|]; [|discriminate].
  rewrite (mon_target nsub t tr2 m2 m3 M2 NI) in LE. unfold m2 in LE at 1. cbn [sm_target] in LE. rewrite Nat.eqb_refl in LE.
  destruct (mon_counts nsub _ _ _ M1) as [A1 D1]. destruct (mon_counts nsub _ _ _ M2) as [A2 D2]. unfold m2 in D2. cbn [sm_done smon0 sm_accepted] in *.
  pose proof (mon_order nsub _ _ _ M1) as O1. pose proof (mon_order nsub _ _ _ M2) as O2. change (sm_groups m2) with (sm_groups m1) in O2. cbn [smon0 sm_groups map app] in O1.
  assert (O : accepted_ids tr1 ++ accepted_ids tr2 = done_ids (tr1 ++ tr2) ++ map mg_id (sm_groups m3)) by (rewrite O1, done_ids_app, <- !app_assoc; f_equal; exact O2).
  assert (LL : (length (accepted_ids tr1) <= length (done_ids (tr1 ++ tr2)))%nat) by (rewrite done_ids_app, app_length; lia).
  exists (skipn (length (accepted_ids tr1)) (done_ids (tr1 ++ tr2))). rewrite <- (firstn_skipn (length (accepted_ids tr1)) (done_ids (tr1 ++ tr2))) at 1. f_equal.
  apply (f_equal (firstn (length (accepted_ids tr1)))) in O. rewrite firstn_app, firstn_all, Nat.sub_diag, app_nil_r in O. rewrite firstn_app in O.
  replace (length (accepted_ids tr1) - length (done_ids (tr1 ++ tr2)))%nat with 0%nat in O by lia. cbn [firstn] in O. rewrite !app_nil_r in O. congruence.
Qed.
(** One that did not have to wait returns after everything accepted has been written; the handlers may be still to come. *)
Theorem C37_written_partial s t tr : s_reach s0 s (tr ++ [EFlushCall t; EFlushReturn t false]) -> clean tr -> to_send tr = packets tr /\ written tr = length (packets tr).
Proof.
  intros R C. assert (C' : clean (tr ++ [EFlushCall t; EFlushReturn t false])) by (intros i e k K; apply in_app_or in K as [K|[K|[K|[]]]]; [eapply C; eauto|discriminate|discriminate]).
  destruct (C34_monitor_partial s _ R C') as (m' & M). rewrite smon_run_app in M. destruct (smon_run nsub smon0 tr) as [m|] eqn:M1; [|discriminate]. cbn [smon_run smon_step sm_groups] in M.
  destruct (forallb sent (sm_groups m)) eqn:F; [|discriminate]. assert (Z : left_of (sm_groups m) = [] /\ outs (sm_groups m) = O).
  { clear - F. induction (sm_groups m) as [|g gs IH]; [auto|]. cbn [forallb] in F. apply andb_prop in F as [F1 F2]. destruct (IH F2) as [I1 I2]. apply sent_left in F1 as [F1 F3]. unfold left_of, outs in *. cbn [flat_map sumw]. rewrite F1, F3, I1, I2. auto. }
  destruct Z as [Z1 Z2]. destruct (mon_packets nsub _ _ _ M1) as [P1 P2]. rewrite Z1, Z2 in *. cbn [smon0 sm_groups left_of outs flat_map sumw app] in P1, P2. rewrite app_nil_r in P1. split.
  - apply (f_equal (map fst)) in P1. now rewrite to_send_marked_fst, packets_marked_fst in P1.
  - rewrite <- packets_marked_fst, map_length. lia.
Qed.

(** *** C49 *)
Theorem C49_sequence_partial s tr1 next step tr2 : s_reach s0 s (tr1 ++ ESetSeq next step :: tr2) -> clean (tr1 ++ tr2) -> no_setseq tr2 -> 0 <= next < 2 ^ 64 ->
  forall i c hab, nth_error (auto_cnts tr2) i = Some (c, hab) -> c = ((next + Z.of_nat i * step) mod 2 ^ 64) mod 2 ^ hab.
Proof.
  intros R C NS N i c hab Hi. assert (C' : clean (tr1 ++ ESetSeq next step :: tr2)).
  { intros j e k K. apply (C j e k). apply in_app_or in K as [K|[K|K]]; [apply in_or_app; auto|discriminate|apply in_or_app; auto]. }
  destruct (C34_monitor_partial s _ R C') as (m' & M). rewrite smon_run_app in M. destruct (smon_run nsub smon0 tr1) as [m1|] eqn:M1; [|discriminate]. cbn [smon_run smon_step] in M.
  exact (mon_cnts nsub _ _ _ M NS N i c hab Hi).
Qed.
Theorem C49_default_partial s tr : s_reach s0 s tr -> clean tr -> no_setseq tr ->
  forall i c hab, nth_error (auto_cnts tr) i = Some (c, hab) -> c = ((1 + Z.of_nat i) mod 2 ^ 64) mod 2 ^ hab.
Proof.
  intros R C NS i c hab Hi. destruct (C34_monitor_partial s _ R C) as (m' & M). rewrite (mon_cnts nsub _ _ _ M NS ltac:(cbn; lia) i c hab Hi). cbn [smon0 sm_next sm_step]. now rewrite Z.mul_1_r.
Qed.
End C34.

(** Cnts assigned with an odd step do not repeat within 2^hab heaps. *)
Theorem C49_distinct next step hab i j : 0 < hab < 64 -> Z.odd step = true -> 0 <= i -> i < j -> j - i < 2 ^ hab ->
  ((next + i * step) mod 2 ^ 64) mod 2 ^ hab <> ((next + j * step) mod 2 ^ 64) mod 2 ^ hab.
Proof.
  intros H O I J L E. assert (D : forall x, (x mod 2 ^ 64) mod 2 ^ hab = x mod 2 ^ hab).
  { intro x. symmetry. apply Znumtheory.Zmod_div_mod; [lia|lia|]. exists (2 ^ (64 - hab)). rewrite <- Z.pow_add_r by lia. f_equal. lia. }
  rewrite !D in E. assert (P : 0 < 2 ^ hab) by lia. assert (Z0 : ((j - i) * step) mod 2 ^ hab = 0).
  { replace ((j - i) * step) with ((next + j * step) - (next + i * step)) by ring. rewrite Zminus_mod, E, Z.sub_diag. apply Z.mod_0_l. lia. }
  apply Z.mod_divide in Z0; [|lia]. assert (R : Znumtheory.rel_prime (2 ^ hab) step).
  { apply Znumtheory.rel_prime_sym, Zpow_facts.rel_prime_Zpower_r; [lia|]. apply Znumtheory.rel_prime_sym, Znumtheory.prime_rel_prime; [apply Znumtheory.prime_2|].
    intros [k K]. rewrite K, Z.mul_comm, Z.odd_mul in O. discriminate. }
  rewrite Z.mul_comm in Z0. apply Znumtheory.Gauss in Z0; [|exact R]. apply Z.divide_pos_le in Z0; lia.
Qed.
