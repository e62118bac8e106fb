(** What a chunk window may do, as a monitor over the log of its callbacks and
    of the accesses to chunk memory. *)
From Coq Require Import ZArith List Bool Sorted Lia.
From Verif Require Import Base ChunkModel.
Import ListNotations.
Open Scope Z_scope.

(** [cm_head]: head last reported; [cm_next]: least id that may be allocated
    next; [cm_out]: chunks obtained from the allocator and not yet made ready,
    oldest first, with the ids they were allocated for. *)
Record cmon := { cm_head : Z; cm_next : Z; cm_out : list (Z * Z) }.
Definition cmon0 : cmon := {| cm_head := 0; cm_next := 0; cm_out := [] |}.
Definition is_out (m : cmon) (id c : Z) : bool := existsb (fun p => (fst p =? id) && (snd p =? c)) (cm_out m).
Definition cmon_step (max : Z) (m : cmon) (e : wev) : option cmon :=
  match e with
  | EAlloc id o =>    (* ids increase, and the window spans at most [max] ids *)
      if (cm_next m <=? id) && (cm_head m <=? id) && forallb (fun p => id - max <? fst p) (cm_out m)
      then Some {| cm_head := cm_head m; cm_next := id + 1; cm_out := cm_out m ++ match o with Some c => [(id, c)] | None => [] end |}
      else None
  | EReady c =>       (* the oldest chunk is handed over *)
      match cm_out m with
      | (id, c') :: out => if c =? c' then Some {| cm_head := cm_head m; cm_next := cm_next m; cm_out := out |} else None
      | [] => None
      end
  | EHead h =>        (* the head advances past no chunk that is still held *)
      if (cm_head m <? h) && forallb (fun p => h <=? fst p) (cm_out m)
      then Some {| cm_head := h; cm_next := cm_next m; cm_out := cm_out m |} else None
  | EWrite id c _ _ | EPresent id c _ | EExtra id c =>   (* only a chunk that is held is touched *)
      if is_out m id c then Some m else None
  end.
Fixpoint cmon_run (max : Z) (m : cmon) (l : list wev) : option cmon :=
  match l with [] => Some m | e :: l' => match cmon_step max m e with None => None | Some m' => cmon_run max m' l' end end.

(** Plain readings of the log. *)
Fixpoint allocs (l : list wev) : list (Z * Z) :=
  match l with EAlloc id (Some c) :: l' => (id, c) :: allocs l' | _ :: l' => allocs l' | [] => [] end.
Fixpoint readies (l : list wev) : list Z :=
  match l with EReady c :: l' => c :: readies l' | _ :: l' => readies l' | [] => [] end.
Fixpoint alloc_ids (l : list wev) : list Z :=
  match l with EAlloc id _ :: l' => id :: alloc_ids l' | _ :: l' => alloc_ids l' | [] => [] end.
Fixpoint heads (l : list wev) : list Z :=
  match l with EHead h :: l' => h :: heads l' | _ :: l' => heads l' | [] => [] end.

(** What the monitor implies about a log. *)
Lemma cmon_run_app max l1 : forall m l2, cmon_run max m (l1 ++ l2) =
  match cmon_run max m l1 with None => None | Some m1 => cmon_run max m1 l2 end.
Proof. induction l1 as [|e l1 IH]; intros m l2; cbn [app cmon_run]; [reflexivity|]. destruct (cmon_step max m e); auto. Qed.

Lemma cmon_prefix max m l1 l2 m' : cmon_run max m (l1 ++ l2) = Some m' -> exists m1, cmon_run max m l1 = Some m1.
Proof. rewrite cmon_run_app. destruct (cmon_run max m l1); [eauto|discriminate]. Qed.

(** Every chunk obtained is handed over at most once, in the order of the ids,
    and the ones not handed over are still held. *)
Lemma cmon_handover max : forall l m m', cmon_run max m l = Some m' ->
  map snd (cm_out m) ++ map snd (allocs l) = readies l ++ map snd (cm_out m').
Proof.
  induction l as [|e l IH]; intros m m' H; cbn [cmon_run] in H.
  - injection H as <-. cbn [allocs readies map app]. now rewrite app_nil_r.
  - destruct (cmon_step max m e) as [m1|] eqn:E; [|discriminate]. apply IH in H. rename H into R.
    destruct e as [id o|c|h|id c off len|id c ix|id c]; cbn [cmon_step] in E; cbn [allocs readies].
    + destruct (_ && _) eqn:C; [|discriminate]. injection E as <-. cbn [cm_out] in R.
      destruct o as [c|]; [|now rewrite app_nil_r in R]. rewrite map_app, <- app_assoc in R. exact R.
    + destruct (cm_out m) as [|[i c'] out]; [discriminate|]. destruct (Z.eqb_spec c c') as [<-|]; [|discriminate]. injection E as <-.
      cbn [cm_out map snd app] in *. now rewrite R.
    + destruct (_ && _); [|discriminate]. injection E as <-. exact R.
    + destruct (is_out m id c); [|discriminate]. injection E as <-. exact R.
    + destruct (is_out m id c); [|discriminate]. injection E as <-. exact R.
    + destruct (is_out m id c); [|discriminate]. injection E as <-. exact R.
Qed.

Lemma cmon_ids max : forall l m m', cmon_run max m l = Some m' ->
  StronglySorted Z.lt (alloc_ids l) /\ Forall (fun i => cm_next m <= i) (alloc_ids l).
Proof.
  induction l as [|e l IH]; intros m m' H; cbn [cmon_run] in H.
  - split; constructor.
  - destruct (cmon_step max m e) as [m1|] eqn:E; [|discriminate]. apply IH in H. destruct H as [S F].
    destruct e as [id o|c|h|id c off len|id c ix|id c]; cbn [cmon_step] in E; cbn [alloc_ids].
    + destruct (_ && _) eqn:C; [|discriminate]. apply andb_true_iff in C as [C _]. apply andb_true_iff in C as [C _]. apply Z.leb_le in C.
      injection E as <-. cbn [cm_next] in F. split; constructor; auto.
      * eapply Forall_impl; [|exact F]. cbn beta. intros; lia.
      * eapply Forall_impl; [|exact F]. cbn beta. intros; lia.
    + destruct (cm_out m) as [|[i c'] out]; [discriminate|]. destruct (c =? c'); [|discriminate]. injection E as <-. auto.
    + destruct (_ && _); [|discriminate]. injection E as <-. auto.
    + destruct (is_out m id c); [|discriminate]. injection E as <-. auto.
    + destruct (is_out m id c); [|discriminate]. injection E as <-. auto.
    + destruct (is_out m id c); [|discriminate]. injection E as <-. auto.
Qed.

Lemma cmon_heads max : forall l m m', cmon_run max m l = Some m' ->
  StronglySorted Z.lt (heads l) /\ Forall (fun h => cm_head m < h) (heads l) /\ cm_head m' = last (heads l) (cm_head m).
Proof.
  induction l as [|e l IH]; intros m m' H; cbn [cmon_run] in H.
  - injection H as <-. repeat split; constructor.
  - destruct (cmon_step max m e) as [m1|] eqn:E; [|discriminate]. apply IH in H. destruct H as (S & F & L).
    destruct e as [id o|c|h|id c off len|id c ix|id c]; cbn [cmon_step] in E; cbn [heads].
    + destruct (_ && _) eqn:C; [|discriminate]. injection E as <-. auto.
    + destruct (cm_out m) as [|[i c'] out]; [discriminate|]. destruct (c =? c'); [|discriminate]. injection E as <-. auto.
    + destruct (_ && _) eqn:C; [|discriminate]. apply andb_true_iff in C as [C _]. apply Z.ltb_lt in C.
      injection E as <-. cbn [cm_head] in *. split; [now constructor|]. split.
      * constructor; [exact C|]. eapply Forall_impl; [|exact F]. cbn beta. intros; lia.
      * rewrite L. destruct (heads l); [reflexivity|]. cbn [last]. clear. revert z. induction l0 as [|b l0 IH]; intro a; [reflexivity|]. cbn [last]. apply IH.
    + destruct (is_out m id c); [|discriminate]. injection E as <-. auto.
    + destruct (is_out m id c); [|discriminate]. injection E as <-. auto.
    + destruct (is_out m id c); [|discriminate]. injection E as <-. auto.
Qed.
