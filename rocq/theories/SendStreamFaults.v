(** C37 and C38: what does not hold; and examples for C34-C38 and C49. *)
From Coq Require Import ZArith List Bool Lia Permutation Arith.
From Verif Require Import Base ConcBase SendStreamModel SendStreamSpec SendStreamBase SendStreamProofs SendStreamProofs2 SendStreamProofs3 SendStreamProofs4 SendStreamProps SendStreamLive.
Import ListNotations.
Open Scope Z_scope.

(** *** C38 *)
(** A request rejected at its first heap leaves the queue alone, now and when its
    unwinder is destroyed, whatever other threads do in between. *)
Theorem C38_first_partial size nsub n s tr t s' e : 1 <= size <= 2 ^ 63 -> s_reach (stream_new size nsub n) s tr -> clean tr ->
  s_step_fn s (LUser t) = Ok s' e -> clean e ->
  match nth_error (s_threads s) t with Some (UReject _ _ _ _) | Some (UUnwind _ _) => True | _ => exists id err, In (EReject id err 0) e end -> s_slots s' = s_slots s.
Proof.
  intros H R C E CE P. destruct (sinv_reach size nsub n s tr H R C) as (m & M & (p & h & gF & gI & gM & gN & pend & [Q L T Mi K]) & _). cbn [s_step_fn] in E. unfold user_step in E.
  destruct (nth_error (s_threads s) t) as [q|] eqn:Ht; [|discriminate]. pose proof (li_rej _ _ _ _ _ _ _ _ _ L t q Ht) as LR. destruct q; try discriminate.
  - destruct P as (id & err & P). pose proof (li_add _ _ _ _ _ _ _ _ _ L t _ Ht eq_refl) as LK. pose proof (li_lock _ _ _ _ _ _ _ _ _ L) as LL. rewrite LK in LL.
    destruct LL as (rq' & todo' & orig' & tail' & hd' & ncnt' & added' & U & AD). rewrite Ht in U. injection U as <- <- <- <- <- <- <-.
    destruct todo as [|hp todo]; [unfold user_commit in E; destruct (get_queue _ _ _); [|discriminate]; destruct (if tail =? _ then _ else _); [|discriminate]; injection E as <- <-; destruct P as [P|[]]; discriminate|].
    unfold user_add in E. cbv zeta in E.
    assert (RJ : forall er ab, match (if ab && negb (rq_single rq) then abort (length (rq_heaps rq)) (s_mask s) (s_slots s) orig tail else Some (s_slots s)) with
                       | None => Fault
                       | Some sl' => Ok (set_thread (set_lock (set_slots s sl') None) t (if rq_single rq then UReject (rq_id rq) er tail tail else UReject (rq_id rq) er orig tail))
                                        [EReject (rq_id rq) er (length added)] end = Ok s' e -> s_slots s' = s_slots s).
    { intros er ab X. destruct (if ab && negb (rq_single rq) then abort (length (rq_heaps rq)) (s_mask s) (s_slots s) orig tail else Some (s_slots s)) as [sl'|] eqn:AB; [|discriminate]. injection X as <- <-.
      destruct P as [P|[]]. injection P as _ _ LA. destruct added; [|discriminate]. pose proof (ad_pend _ _ _ _ _ _ _ _ _ _ _ _ _ _ AD) as AP. cbn [map new_items] in AP.
      assert (OT : orig = tail) by (rewrite (ad_orig _ _ _ _ _ _ _ _ _ _ _ _ _ _ AD), (ad_tail _ _ _ _ _ _ _ _ _ _ _ _ _ _ AD), AP; cbn [length]; f_equal; lia).
      cbn [s_slots set_thread set_lock set_slots]. destruct (ab && negb (rq_single rq)); [|congruence]. rewrite OT in AB. destruct (length (rq_heaps rq)); cbn [abort] in AB; rewrite Z.eqb_refl in AB; congruence. }
    destruct (s_nsub s <=? h_sub hp); [exact (RJ _ true E)|]. destruct (w64 (tail - head) =? s_size s); [exact (RJ _ true E)|]. destruct (negb (h_cnt hp <? 0) && _); [exact (RJ _ false E)|].
    destruct (construct _ _ _ _); [|discriminate]. injection E as <- <-. destruct P.
  - injection E as <- <-. reflexivity.
  - subst orig. assert (AB : abort (length (s_slots s)) (s_mask s) (s_slots s) tail tail = Some (s_slots s)) by (destruct (length (s_slots s)); cbn [abort]; now rewrite Z.eqb_refl).
    rewrite AB in E. injection E as <- <-. reflexivity.
  - destruct P as (id & err & P). injection E as <- <-. destruct P.
  - destruct signalled; [|discriminate]. injection E as <- <-. reflexivity.
Qed.

Lemma abort_keeps_none mask : forall f sl i tail sl' j, abort f mask sl i tail = Some sl' -> nth_error sl j = Some None -> nth_error sl' j = Some None.
Proof.
  induction f as [|f IH]; intros sl i tail sl' j H N; cbn [abort] in H; (destruct (i =? tail); [congruence|]); [discriminate|].
  unfold destroy in H. destruct (nth_error sl (slot_of mask i)) as [[q|]|] eqn:E; try discriminate. apply (IH _ _ _ _ j H). rewrite nth_upd. destruct (Nat.eqb_spec j (slot_of mask i)) as [X|]; [|exact N].
  subst j. congruence.
Qed.
Lemma abort_first mask f sl i tail sl' : abort f mask sl i tail = Some sl' -> i <> tail -> nth_error sl' (slot_of mask i) = Some None.
Proof.
  intros H N. destruct f as [|f]; cbn [abort] in H; destruct (Z.eqb_spec i tail) as [|_]; try contradiction; [discriminate|]. unfold destroy in H.
  destruct (nth_error sl (slot_of mask i)) as [[q|]|] eqn:E; try discriminate. eapply abort_keeps_none; [exact H|]. assert (slot_of mask i < length sl)%nat by (apply nth_error_Some; congruence).
  now apply upd_same.
Qed.
(** Whenever a group is rejected because the queue is full (or because of a
    substream index) after some of its heaps were added, the slots of these are
    destroyed a second time when the call returns. *)
Theorem C38_refuted size nsub n s tr t rq h todo orig tail head ncnt added : 1 <= size <= 2 ^ 63 -> s_reach (stream_new size nsub n) s tr -> clean tr ->
  nth_error (s_threads s) t = Some (UAdd rq (h :: todo) orig tail head ncnt added) -> rq_single rq = false -> added <> [] ->
  nsub <= h_sub h \/ w64 (tail - head) = size ->
  exists s1 s2 err, s_step_fn s (LUser t) = Ok s1 [EReject (rq_id rq) err (length added)] /\ s_step_fn s1 (LUser t) = Ok s2 [] /\ s_step_fn s2 (LUser t) = Fault.
Proof.
  intros H R C Ht SG NE P. destruct (sinv_reach size nsub n s tr H R C) as (m & M & SI & N1 & N2). pose proof (step_good s m (LUser t) SI) as G.
  destruct SI as (p & h0 & gF & gI & gM & gN & pend & [Q L T Mi K]).
  pose proof (li_add _ _ _ _ _ _ _ _ _ L t _ Ht eq_refl) as LK. pose proof (li_lock _ _ _ _ _ _ _ _ _ L) as LL. rewrite LK in LL.
  destruct LL as (rq' & todo' & orig' & tail' & hd' & ncnt' & added' & U & AD). rewrite Ht in U. injection U as <- <- <- <- <- <- <-.
  assert (NT : orig <> tail).
  { rewrite (ad_orig _ _ _ _ _ _ _ _ _ _ _ _ _ _ AD), (ad_tail _ _ _ _ _ _ _ _ _ _ _ _ _ _ AD). pose proof (circ_len _ _ _ _ (qi_circ _ _ _ _ _ _ _ _ _ _ _ _ _ Q)) as CL. rewrite app_length in CL.
    pose proof (pow_63 p (qi_p _ _ _ _ _ _ _ _ _ _ _ _ _ Q)). intro E. apply w64_inj in E; [|lia].
    pose proof (ad_pend _ _ _ _ _ _ _ _ _ _ _ _ _ _ AD) as AP. destruct added; [contradiction|]. cbn [map new_items] in AP. rewrite AP in E. cbn [length] in E. lia. }
  assert (EX : exists err s1 sl', s_step_fn s (LUser t) = Ok s1 [EReject (rq_id rq) err (length added)] /\ abort (length (rq_heaps rq)) (s_mask s) (s_slots s) orig tail = Some sl'
               /\ s1 = set_thread (set_lock (set_slots s sl') None) t (UReject (rq_id rq) err orig tail)).
  { cbn [s_step_fn] in *. unfold user_step in *. rewrite Ht in *. unfold user_add in *. cbv zeta in *. rewrite N1, N2 in *. rewrite SG in *. cbn [negb andb] in *.
    destruct (Z.leb_spec nsub (h_sub h)) as [X|X].
    - destruct (abort _ _ _ _ _) as [sl'|] eqn:AB; [|destruct G]. eexists _, _, _. split; [reflexivity|]. split; reflexivity.
    - destruct P as [P|P]; [lia|]. rewrite P, Z.eqb_refl in *. destruct (abort _ _ _ _ _) as [sl'|] eqn:AB; [|destruct G]. eexists _, _, _. split; [reflexivity|]. split; reflexivity. }
  destruct EX as (err & s1 & sl' & E1 & AB & ->). assert (Lt : (t < length (s_threads s))%nat) by (apply nth_error_Some; congruence).
  eexists _, _, err. split; [exact E1|]. split.
  - cbn [s_step_fn]. unfold user_step. cbn [s_threads set_thread set_lock set_slots]. rewrite upd_same by exact Lt. reflexivity.
  - cbn [s_step_fn]. unfold user_step. cbn [s_threads s_slots s_mask s_io set_thread set_io set_lock set_slots]. rewrite upd_same by (rewrite upd_length; exact Lt).
    destruct (length sl') as [|f]; cbn [abort]; destruct (Z.eqb_spec orig tail) as [|_]; try contradiction; [reflexivity|]. unfold destroy. now rewrite (abort_first _ _ _ _ _ _ AB NT).
Qed.

(** *** Examples *)
Definition pk (i : Z) : pkt := {| p_id := i; p_size := 100 |}.
Definition hp (ids : list Z) (sub : Z) : heap_ref := {| h_pkts := map pk ids; h_hab := 40; h_cnt := -1; h_sub := sub |}.
Definition single (id : Z) (ids : list Z) : request := {| rq_id := id; rq_mode := Serial; rq_single := true; rq_heaps := [hp ids 0] |}.
Definition group (id : Z) (mode : gmode) (hs : list heap_ref) : request := {| rq_id := id; rq_mode := mode; rq_single := false; rq_heaps := hs |}.
Definition ex0 : sst := stream_new 4 2 2.
Definition ex_run (l : list slabel) : sst * list sev := match s_run ex0 l with Some r => r | None => (ex0, []) end.
Lemma ex_run_reach l r : s_run ex0 l = Some r -> s_reach ex0 (fst r) (snd r).
Proof. intro H. change (snd r) with ([] ++ snd r). destruct r as [s e]. eapply s_run_reach; [constructor|exact H]. Qed.
Fixpoint cleanb (l : list sev) : bool := match l with [] => true | EReject _ _ (S _) :: _ => false | _ :: l' => cleanb l' end.
Lemma cleanb_ok l : cleanb l = true -> clean l.
Proof.
  induction l as [|e l IH]; intros H id err k K; [destruct K|]. destruct K as [->|K].
  - destruct k; [reflexivity|discriminate].
  - apply (IH ltac:(destruct e; try destruct added; try discriminate; exact H) id err k K).
Qed.

(** Thread 0 sends a round-robin group of two heaps, thread 1 one heap; the
    writer sends everything; a group that is too large for the queue is not
    tried.  Cnts are 1, 2 and 3. *)
Definition ex_labels : list slabel :=
  [LSend 0 (group 10 RoundRobin [hp [1; 2; 3] 0; hp [4] 1]); LUser 0; LUser 0; LUser 0; LUser 0; LStart; LGet; LSend 1 (single 11 [5; 6]); LGet; LUser 1; LUser 1;
   LWritten 100 0; LFlush 0; LGet; LGet; LGet; LWritten 100 0; LWritten 100 7; LWritten 100 0; LComplete 1; LNext; LNext; LGet; LWritten 100 0; LWritten 100 0; LComplete 1; LNext; LNext; LUser 0; LNext; LGet; LWait].
Example ex_events : snd (ex_run ex_labels) =
  [EAccept 10 RoundRobin [(hp [1; 2; 3] 0, 1); (hp [4] 1, 2)]; EPacket (pk 1) 0 false; EPacket (pk 4) 1 false; EAccept 11 Serial [(hp [5; 6] 0, 3)]; EWritten 100 0 false; EFlushCall 0;
   EPacket (pk 2) 0 false; EPacket (pk 3) 0 true; EPacket (pk 5) 0 false; EWritten 100 0 false; EWritten 100 7 false; EWritten 100 0 true; EDone 10 7 400;
   EPacket (pk 6) 0 true; EWritten 100 0 false; EWritten 100 0 true; EDone 11 0 200; EFlushReturn 0 true].
Proof. vm_compute. reflexivity. Qed.
Example ex_clean : s_reach ex0 (fst (ex_run ex_labels)) (snd (ex_run ex_labels)) /\ clean (snd (ex_run ex_labels)).
Proof. split; [|apply cleanb_ok; vm_compute; reflexivity]. apply (ex_run_reach ex_labels). vm_compute. reflexivity. Qed.
Example ex_readings : let tr := snd (ex_run ex_labels) in
  accepted_ids tr = [10; 11] /\ done_ids tr = [10; 11] /\ map (fun x => p_id (fst x)) (packets tr) = [1; 4; 2; 3; 5; 6] /\ to_send tr = packets tr /\ written tr = 6%nat
  /\ auto_cnts tr = [(1, 40); (2, 40); (3, 40)] /\ s_need (fst (ex_run ex_labels)) = true.
Proof. vm_compute. auto 10. Qed.
(** Half way (C36): the queue is not empty and the writer is running. *)
Example ex_awake : let r := ex_run (firstn 14 ex_labels) in accepted_ids (snd r) = [10; 11] /\ done_ids (snd r) = [] /\ w_pc (s_w (fst r)) = WRun /\ w64 (s_tail (fst r) - s_head (fst r)) = 3.
Proof. vm_compute. auto. Qed.
(** Rejections: an empty group; a wrong substream; a full queue. *)
Definition ex_labels2 : list slabel :=
  [LSend 0 (group 20 Serial []); LSend 0 (group 21 Serial [hp [1] 2]); LUser 0; LUser 0; LUser 0; LIo 1;
   LSend 1 (group 22 Serial [hp [1] 0; hp [2] 0; hp [3] 0; hp [4] 0]); LUser 1; LUser 1; LUser 1; LUser 1; LUser 1; LSend 0 (single 23 [9]); LUser 0; LUser 0; LUser 0; LIo 0; LIo 0].
Example ex_rejected : snd (ex_run ex_labels2) =
  [EReject 20 err_invalid 0; EReject 21 err_invalid 0; EFail 21 err_invalid; EAccept 22 Serial [(hp [1] 0, 1); (hp [2] 0, 2); (hp [3] 0, 3); (hp [4] 0, 4)];
   EReject 23 err_would_block 0; EFail 20 err_invalid; EFail 23 err_would_block]
  /\ s_reach ex0 (fst (ex_run ex_labels2)) (snd (ex_run ex_labels2)) /\ clean (snd (ex_run ex_labels2)) /\ w64 (s_tail (fst (ex_run ex_labels2)) - s_head (fst (ex_run ex_labels2))) = 4.
Proof. split; [vm_compute; reflexivity|]. split; [apply (ex_run_reach ex_labels2); vm_compute; reflexivity|]. split; [apply cleanb_ok; vm_compute; reflexivity|vm_compute; reflexivity]. Qed.

(** *** C37 *)
(** flush() can return before the handler of a request accepted before it has
    been called: queue_head is advanced (and the heap destroyed) before the
    handlers are called. *)
Definition ex_labels3 : list slabel :=
  [LSend 0 (single 30 [1]); LUser 0; LUser 0; LUser 0; LStart; LGet; LWritten 100 0; LComplete 1; LFlush 1; LNext].
Theorem C37_refuted : exists s tr1 tr2, s_reach ex0 s (tr1 ++ [EFlushCall 1; EFlushReturn 1 false] ++ tr2) /\ clean (tr1 ++ tr2) /\
  In 30 (accepted_ids tr1) /\ ~ In 30 (done_ids tr1) /\ done_ids tr2 = [30].
Proof.
  exists (fst (ex_run ex_labels3)), [EAccept 30 Serial [(hp [1] 0, 1)]; EPacket (pk 1) 0 true; EWritten 100 0 true], [EDone 30 0 100].
  split; [|split; [apply cleanb_ok; reflexivity|split; [left; reflexivity|split; [intros []|reflexivity]]]].
  replace (_ ++ _) with (snd (ex_run ex_labels3)) by (vm_compute; reflexivity). apply (ex_run_reach ex_labels3). vm_compute. reflexivity.
Qed.

(** The hypotheses of C38_refuted are met: the second heap of a group has a wrong
    substream index. *)
Definition ex_labels4 : list slabel := [LSend 0 (group 40 RoundRobin [hp [1] 0; hp [2] 7]); LUser 0].
Example C38_refuted_ex : exists s h tail ncnt added, s_reach ex0 s [] /\
  nth_error (s_threads s) 0 = Some (UAdd (group 40 RoundRobin [hp [1] 0; hp [2] 7]) [h] 0 tail 0 ncnt added) /\ added <> [] /\ 2 <= h_sub h.
Proof.
  exists (fst (ex_run ex_labels4)). eexists _, _, _, _. split; [|split; [vm_compute; reflexivity|split; [discriminate|vm_compute; discriminate]]].
  replace ([] : list sev) with (snd (ex_run ex_labels4)) by (vm_compute; reflexivity). apply (ex_run_reach ex_labels4). vm_compute. reflexivity.
Qed.
(** With a second thread, what the unwinder destroys can be the heap of another
    request, accepted in between: the writer then uses a destroyed item. *)
Definition ex_labels5 : list slabel :=
  ex_labels4 ++ [LUser 0; LSend 1 (single 41 [3]); LUser 1; LUser 1; LUser 0; LUser 0; LUser 1; LStart].
Theorem C38_other_request_refuted : exists s tr, s_reach ex0 s tr /\ In 41 (accepted_ids tr) /\ ~ In 41 (done_ids tr) /\ packets tr = [] /\ s_step_fn s LGet = Fault.
Proof.
  exists (fst (ex_run ex_labels5)), (snd (ex_run ex_labels5)). split; [apply (ex_run_reach ex_labels5); vm_compute; reflexivity|]. split; [vm_compute; auto|]. split; [vm_compute; intros []|].
  split; vm_compute; reflexivity.
Qed.

Print Assumptions C34_monitor_partial.
Print Assumptions C34_order_partial.
Print Assumptions C34_written_partial.
Print Assumptions C34_rejected_partial.
Print Assumptions C34_capacity_partial.
Print Assumptions C34_safe_partial.
Print Assumptions C34_single_clean.
Print Assumptions C35_order_partial.
Print Assumptions C35_last.
Print Assumptions C35_once.
Print Assumptions C36_no_lost_wakeup_partial.
Print Assumptions C36_quiescent_partial.
Print Assumptions C36_can_finish_partial.
Print Assumptions C37_waited_partial.
Print Assumptions C37_written_partial.
Print Assumptions C37_refuted.
Print Assumptions C38_first_partial.
Print Assumptions C38_refuted.
Print Assumptions C38_other_request_refuted.
Print Assumptions C49_sequence_partial.
Print Assumptions C49_default_partial.
Print Assumptions C49_distinct.
