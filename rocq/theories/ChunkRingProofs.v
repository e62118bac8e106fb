(** Invariants of chunk streams with rings (C62). *)
From Coq Require Import List Arith Bool Lia.
From Verif Require Import ConcBase RingModel RingSpec RingProofs RingStreamProofs ChunkRingModel ChunkRingSpec.
Import ListNotations.

(** *** Steps of a ring *)
Section Ring.
Context {V : Type}.
Lemma step_info (g : ring V) t sp g' ev : step g t sp = Some (g', ev) -> exists p p', nth_error (threads g) t = Some p /\ threads g' = upd (threads g) t p' /\ trans (stopped g) t p p' ev /\
  stopped g' = match ev with [EStop _] => true | _ => stopped g end /\
  producers g' = match p with StopTail true => producers g - 1 | AddProducer => S (producers g) | _ => producers g end /\
  (p = StopTail true -> (ev = [EStop t] -> producers g - 1 = 0) /\ (ev <> [EStop t] -> producers g - 1 <> 0)).
Proof.
  intro H. destruct (step_trans _ _ _ _ _ H) as (p & p' & Hp & Ht & Htr & _). exists p, p'. split; [exact Hp|]. split; [exact Ht|]. split; [exact Htr|]. unfold step in H. rewrite Hp in H. clear Htr Ht Hp.
  assert (G : forall (x : ring V) q ev0, stopped x = stopped g -> producers x = producers g -> Some (set_thread x t q, ev0) = Some (g', ev) -> (forall u, ev0 <> [EStop u]) ->
    stopped g' = match ev with [EStop _] => true | _ => stopped g end /\ producers g' = producers g).
  { intros x q ev0 E1 E2 E N. injection E as <- <-. cbn [set_thread stopped producers]. rewrite E1, E2. split; [|reflexivity]. destruct ev0 as [|[] []]; try reflexivity. now destruct (N t0). }
  assert (N : forall u, @nil (event V) <> [EStop u]) by discriminate.
  destruct p; try discriminate.
  - destruct (space_sem g); [discriminate|]. edestruct G as [A C]; [| |exact H|exact N|]; try reflexivity. repeat split; auto; discriminate.
  - destruct (space_sem g); [|destruct sp]; (edestruct G as [A C]; [| |exact H|exact N|]; try reflexivity; repeat split; auto; discriminate).
  - edestruct G as [A C]; [| |exact H|discriminate|]; try reflexivity. repeat split; auto; discriminate.
  - destruct (stopped g) eqn:S; (edestruct G as [A C]; [| |exact H|discriminate|]; try reflexivity; auto); repeat split; auto; discriminate.
  - edestruct G as [A C]; [| |exact H|discriminate|]; try reflexivity. repeat split; auto; discriminate.
  - edestruct G as [A C]; [| |exact H|discriminate|]; try reflexivity. repeat split; auto; discriminate.
  - destruct (data_sem g); [discriminate|]. edestruct G as [A C]; [| |exact H|exact N|]; try reflexivity. repeat split; auto; discriminate.
  - destruct (data_sem g); [|destruct sp]; (edestruct G as [A C]; [| |exact H|exact N|]; try reflexivity; repeat split; auto; discriminate).
  - edestruct G as [A C]; [| |exact H|discriminate|]; try reflexivity. repeat split; auto; discriminate.
  - destruct (stop_position g =? head g); [|destruct (nth_error (storage g) (head g)) as [[v|]|]]; (edestruct G as [A C]; [| |exact H|discriminate|]; try reflexivity; repeat split; auto; discriminate).
  - edestruct G as [A C]; [| |exact H|discriminate|]; try reflexivity. repeat split; auto; discriminate.
  - edestruct G as [A C]; [| |exact H|discriminate|]; try reflexivity. repeat split; auto; discriminate.
  - destruct remove; cbn [andb] in H.
    + cbn [set_producers producers] in H. destruct (Nat.eqb_spec (producers g - 1) 0) as [E|E]; cbn [negb] in H; injection H as <- <-; cbn [set_thread set_stopped set_producers stopped producers]; repeat split; auto; congruence.
    + injection H as <- <-. cbn. repeat split; auto; discriminate.
  - edestruct G as [A C]; [| |exact H|discriminate|]; try reflexivity. repeat split; auto; discriminate.
  - edestruct G as [A C]; [| |exact H|discriminate|]; try reflexivity. repeat split; auto; discriminate.
  - edestruct G as [A C]; [| |exact H|discriminate|]; try reflexivity. repeat split; auto; discriminate.
  - injection H as <- <-. cbn. repeat split; auto; discriminate.
  - edestruct G as [A C]; [| |exact H|discriminate|]; try reflexivity. repeat split; auto; discriminate.
Qed.
Lemma exec_len cap n tr (g : ring V) : exec cap n tr g -> length (threads g) = n.
Proof.
  induction 1 as [|tr g l g' ev E IH S]; [apply repeat_length|]. rewrite <- IH. destruct l as [t o|t sp].
  - apply call_ring in S as (_ & -> & _). cbn. apply upd_length.
  - cbn in S. destruct (step_info _ _ _ _ _ S) as (p & p' & _ & -> & _). apply upd_length.
Qed.
End Ring.
Lemma stop_pc_stopped cap n tr (g : ring nat) t p : exec cap n tr g -> nth_error (threads g) t = Some p -> wSD p = 1 -> stopped g = true.
Proof.
  intros E H W. destruct (exec_inv Nat.eq_dec _ _ _ _ E) as (m & D & F & _ & I). destruct (stopped g) eqn:S; [reflexivity|]. destruct (iv_live _ _ _ _ _ I S) as (_ & _ & Z & _).
  pose proof (sumw_ge wSD _ _ _ H). lia.
Qed.

(** *** Threads and rings agree *)
Definition popst (got : option nat) (p : pc nat) : Prop := match got with None => p = PopWait \/ p = PopHave \/ p = PopUndo \/ p = TryPop \/ p = TryPopFail | Some v => p = PopPut v end.
Definition pushst (v : nat) (sent : bool) (p : pc nat) : Prop := if sent then p = PushPut else p = PushWait v \/ p = PushHave v \/ p = PushUndo \/ p = TryPush v \/ p = TryPushFail.
Definition stopst (p : pc nat) : Prop := p = StopTail false \/ (exists n, p = StopHead n) \/ p = StopSpace \/ p = StopData.
Definition remst (eff : bool) (p : pc nat) : Prop := if eff then (exists n, p = StopHead n) \/ p = StopSpace \/ p = StopData else p = StopTail true.
(** A push is not a try_push, and so on *)
Definition notry (p : pc nat) : Prop := match p with TryPush _ | TryPushFail | TryPop | TryPopFail => False | _ => True end.
Definition okc (c : client) (pd pf : pc nat) : Prop :=
  match c with
  | KIdle | KHeld _ | KFlush _ _ | KWant _ _ => pd = Idle /\ pf = Idle
  | KNew => pd = AddProducer /\ pf = Idle
  | KAlloc _ got => pd = Idle /\ popst got pf /\ notry pf
  | KReady _ v _ sent => pushst v sent pd /\ notry pd /\ pf = Idle
  | KRemove _ _ eff => remst eff pd /\ pf = Idle
  | KStopFree _ => pd = Idle /\ stopst pf
  | KStopData _ => stopst pd /\ pf = Idle
  | KAdd v sent => pd = Idle /\ pushst v sent pf
  | KGet _ got => popst got pd /\ pf = Idle
  | KExt true => stopst pd /\ pf = Idle
  | KExt false => pd = Idle /\ stopst pf
  end.
Record base (capd capf n : nat) (tr : list cevent) (s : cstate) : Prop := {
  b_d : exec capd n (of_d tr) (sd s);
  b_f : exec capf n (of_f tr) (sf s);
  b_len : length (cl s) = n;
  b_ok : forall t c pd pf, nth_error (cl s) t = Some c -> nth_error (threads (sd s)) t = Some pd -> nth_error (threads (sf s)) t = Some pf -> okc c pd pf }.

(** *** What threads do, without the inside of the rings *)
Definition upto (s s' : cstate) (x : list cstream) (m d : list nat) (ds fs : bool) (pr : nat) : Prop :=
  st s' = x /\ mine s' = m /\ dirty s' = d /\ stopped (sd s') = ds /\ stopped (sf s') = fs /\ producers (sd s') = pr.
Notation Sd s := (stopped (sd s)).
Notation Sf s := (stopped (sf s)).
Notation Pr s := (producers (sd s)).
Inductive move (t : nat) (s s' : cstate) : client -> client -> list cevent -> Prop :=
| m_stut c : upto s s' (st s) (mine s) (dirty s) (Sd s) (Sf s) (Pr s) -> move t s s' c c []
| m_new_call : upto s s' (st s) (mine s) (dirty s) (Sd s) (Sf s) (Pr s) -> move t s s' KIdle KNew [DataE (ECall t OpAddProducer)]
| m_new : upto s s' (st s ++ [cnew]) (mine s) (dirty s) (Sd s) (Sf s) (S (Pr s)) -> move t s s' KNew KIdle [DataE (ERet t RUnit); Made (length (st s))]
| m_lock i x : nth_error (st s) i = Some x -> c_mutex x = None -> upto s s' (upd (st s) i (with_lock x (Some t))) (mine s) (dirty s) (Sd s) (Sf s) (Pr s) -> move t s s' KIdle (KHeld i) []
| m_unlock i x : nth_error (st s) i = Some x -> upto s s' (upd (st s) i (with_lock x None)) (mine s) (dirty s) (Sd s) (Sf s) (Pr s) -> move t s s' (KHeld i) KIdle []
| m_alloc_call i x : nth_error (st s) i = Some x -> c_done x = false -> upto s s' (st s) (mine s) (dirty s) (Sd s) (Sf s) (Pr s) -> move t s s' (KHeld i) (KAlloc i None) [FreeE (ECall t OpPop)]
| m_ready_call i x v w : nth_error (st s) i = Some x -> c_done x = false -> c_win x = v :: w -> upto s s' (upd (st s) i (with_win x w)) (mine s) (dirty s) (Sd s) (Sf s) (Pr s) -> move t s s' (KHeld i) (KReady i v None false) [DataE (ECall t (OpPush v))]
| m_touch i x v : nth_error (st s) i = Some x -> In v (c_win x) -> upto s s' (st s) (mine s) (v :: dirty s) (Sd s) (Sf s) (Pr s) -> move t s s' (KHeld i) (KHeld i) []
| m_netstop i x : nth_error (st s) i = Some x -> c_done x = false -> upto s s' (upd (st s) i (with_done x)) (mine s) (dirty s) (Sd s) (Sf s) (Pr s) -> move t s s' (KHeld i) (KFlush i NetStop) []
| m_flush i f x v w : nth_error (st s) i = Some x -> c_win x = v :: w -> upto s s' (upd (st s) i (with_win x w)) (mine s) (dirty s) (Sd s) (Sf s) (Pr s) -> move t s s' (KFlush i f) (KReady i v (Some f) false) [DataE (ECall t (OpPush v))]
| m_flushed i x : nth_error (st s) i = Some x -> c_win x = [] -> upto s s' (upd (st s) i (with_lock x None)) (mine s) (dirty s) (Sd s) (Sf s) (Pr s) -> move t s s' (KFlush i UserFlush) (KWant i P2) []
| m_over i f x : nth_error (st s) i = Some x -> c_win x = [] -> f <> UserFlush -> upto s s' (st s) (mine s) (dirty s) (Sd s) (Sf s) (Pr s) -> move t s s' (KFlush i f) (KRemove i f false) [Over i; DataE (ECall t OpRemoveProducer)]
| m_want1 i x : nth_error (st s) i = Some x -> c_mutex x = None -> upto s s' (upd (st s) i (with_lock x (Some t))) (mine s) (dirty s) (Sd s) (Sf s) (Pr s) -> move t s s' (KWant i P1) (KFlush i UserFlush) []
| m_want2 i x : nth_error (st s) i = Some x -> c_mutex x = None -> c_done x = true -> upto s s' (st s) (mine s) (dirty s) (Sd s) (Sf s) (Pr s) -> move t s s' (KWant i P2) (KWant i P3) []
| m_want2' i x : nth_error (st s) i = Some x -> c_mutex x = None -> c_done x = false -> upto s s' (upd (st s) i (with_done (with_lock x (Some t)))) (mine s) (dirty s) (Sd s) (Sf s) (Pr s) -> move t s s' (KWant i P2) (KFlush i UserStop) []
| m_want3 i x : nth_error (st s) i = Some x -> c_mutex x = None -> upto s s' (upd (st s) i (with_grave x [])) (mine s) (dirty s) (Sd s) (Sf s) (Pr s) -> move t s s' (KWant i P3) KIdle (map (Freed i) (c_grave x) ++ [StopRet i])
| m_stop_call i x : nth_error (st s) i = Some x -> upto s s' (st s) (mine s) (dirty s) (Sd s) (Sf s) (Pr s) -> move t s s' KIdle (KStopFree i) [StopCall i; FreeE (ECall t OpStop)]
| m_add_call v : In v (mine s) -> upto s s' (st s) (remove1 v (mine s)) (remove_all v (dirty s)) (Sd s) (Sf s) (Pr s) -> move t s s' KIdle (KAdd v false) [FreeE (ECall t (OpTryPush v))]
| m_get_call b : upto s s' (st s) (mine s) (dirty s) (Sd s) (Sf s) (Pr s) -> move t s s' KIdle (KGet b None) [DataE (ECall t (if b then OpTryPop else OpPop))]
| m_use v : In v (mine s) -> upto s s' (st s) (mine s) (v :: dirty s) (Sd s) (Sf s) (Pr s) -> move t s s' KIdle KIdle []
| m_ext_d : upto s s' (st s) (mine s) (dirty s) (Sd s) (Sf s) (Pr s) -> move t s s' KIdle (KExt true) [ExtStop; DataE (ECall t OpStop)]
| m_ext_f : upto s s' (st s) (mine s) (dirty s) (Sd s) (Sf s) (Pr s) -> move t s s' KIdle (KExt false) [ExtStop; FreeE (ECall t OpStop)]
| m_push i v k : Sd s = false -> upto s s' (st s) (mine s) (dirty s) false (Sf s) (Pr s) -> move t s s' (KReady i v k false) (KReady i v k true) [DataE (EPush t v); Sent i v]
| m_pushed i v k : upto s s' (st s) (mine s) (dirty s) (Sd s) (Sf s) (Pr s) -> move t s s' (KReady i v k true) (back i k) [DataE (ERet t RPushed)]
| m_buried i v k x : nth_error (st s) i = Some x -> Sd s = true -> upto s s' (upd (st s) i (with_grave x (v :: c_grave x))) (mine s) (dirty s) true (Sf s) (Pr s) -> move t s s' (KReady i v k false) (back i k) [DataE (ERet t RStopped); Buried i v]
| m_pop b v : upto s s' (st s) (mine s) (dirty s) (Sd s) (Sf s) (Pr s) -> move t s s' (KGet b None) (KGet b (Some v)) [DataE (EPop t v)]
| m_popped b v : upto s s' (st s) (v :: mine s) (dirty s) (Sd s) (Sf s) (Pr s) -> move t s s' (KGet b (Some v)) KIdle [DataE (ERet t (RPopped v)); Got v]
| m_nopop b r : upto s s' (st s) (mine s) (dirty s) (Sd s) (Sf s) (Pr s) -> move t s s' (KGet b None) KIdle [DataE (ERet t r)]
| m_stop_d c : (exists i, c = KStopData i) \/ c = KExt true -> upto s s' (st s) (mine s) (dirty s) true (Sf s) (Pr s) -> move t s s' c c [DataE (EStop t)]
| m_stopped_d i : Sd s = true -> upto s s' (st s) (mine s) (dirty s) true (Sf s) (Pr s) -> move t s s' (KStopData i) (KWant i P1) [DataE (ERet t (RBool true))]
| m_ext_d_ret : upto s s' (st s) (mine s) (dirty s) (Sd s) (Sf s) (Pr s) -> move t s s' (KExt true) KIdle [DataE (ERet t (RBool true))]
| m_last i f : Pr s - 1 = 0 -> upto s s' (st s) (mine s) (dirty s) true (Sf s) (Pr s - 1) -> move t s s' (KRemove i f false) (KRemove i f true) [DataE (EStop t)]
| m_removed i f (eff : bool) x b : nth_error (st s) i = Some x -> (eff = false -> Pr s - 1 <> 0) -> upto s s' (upd (st s) i (with_lock (with_removed x) None)) (mine s) (dirty s) (Sd s) (Sf s) (if eff then Pr s else Pr s - 1) ->
    move t s s' (KRemove i f eff) (match f with NetStop => KIdle | _ => KWant i P3 end) [DataE (ERet t (RBool b))]
| m_fpush v : upto s s' (st s) (mine s) (dirty s) (Sd s) (Sf s) (Pr s) -> move t s s' (KAdd v false) (KAdd v true) [FreeE (EPush t v)]
| m_fpushed v : upto s s' (st s) (mine s) (dirty s) (Sd s) (Sf s) (Pr s) -> move t s s' (KAdd v true) KIdle [FreeE (ERet t RPushed); Added v]
| m_fnot v r : upto s s' (st s) (v :: mine s) (dirty s) (Sd s) (Sf s) (Pr s) -> move t s s' (KAdd v false) KIdle [FreeE (ERet t r); NotAdded v]
| m_fpop i v : upto s s' (st s) (mine s) (dirty s) (Sd s) (Sf s) (Pr s) -> move t s s' (KAlloc i None) (KAlloc i (Some v)) [FreeE (EPop t v)]
| m_alloc i v x : nth_error (st s) i = Some x -> upto s s' (upd (st s) i (with_win x (c_win x ++ [v]))) (mine s) (dirty s) (Sd s) (Sf s) (Pr s) -> move t s s' (KAlloc i (Some v)) (KHeld i) [FreeE (ERet t (RPopped v)); Alloc i v]
| m_noalloc i : upto s s' (st s) (mine s) (dirty s) (Sd s) (Sf s) (Pr s) -> move t s s' (KAlloc i None) (KHeld i) [FreeE (ERet t RStopped); NoChunk i]
| m_stop_f c : (exists i, c = KStopFree i) \/ c = KExt false -> upto s s' (st s) (mine s) (dirty s) (Sd s) true (Pr s) -> move t s s' c c [FreeE (EStop t)]
| m_stopped_f i : Sf s = true -> upto s s' (st s) (mine s) (dirty s) (Sd s) true (Pr s) -> move t s s' (KStopFree i) (KStopData i) [FreeE (ERet t (RBool true)); DataE (ECall t OpStop)]
| m_ext_f_ret : upto s s' (st s) (mine s) (dirty s) (Sd s) (Sf s) (Pr s) -> move t s s' (KExt false) KIdle [FreeE (ERet t (RBool true))].

Lemma of_d_app a b : of_d (a ++ b) = of_d a ++ of_d b. Proof. apply flat_map_app. Qed.
Lemma of_f_app a b : of_f (a ++ b) = of_f a ++ of_f b. Proof. apply flat_map_app. Qed.
Lemma of_d_map l : of_d (map DataE l) = l. Proof. induction l; cbn; [reflexivity|now f_equal]. Qed.
Lemma of_f_map l : of_f (map FreeE l) = l. Proof. induction l; cbn; [reflexivity|now f_equal]. Qed.
Lemma of_d_f l : of_d (map FreeE l) = []. Proof. now induction l. Qed.
Lemma of_f_d l : of_f (map DataE l) = []. Proof. now induction l. Qed.
Lemma of_d_freed i l : of_d (map (Freed i) l) = []. Proof. now induction l. Qed.
Lemma of_f_freed i l : of_f (map (Freed i) l) = []. Proof. now induction l. Qed.

Section Base.
Context (capd capf n : nat).
Lemma base_threads tr s t c : base capd capf n tr s -> nth_error (cl s) t = Some c -> exists pd pf, nth_error (threads (sd s)) t = Some pd /\ nth_error (threads (sf s)) t = Some pf /\ okc c pd pf.
Proof.
  intros B H. assert (L : t < length (cl s)) by (apply nth_error_Some; congruence). rewrite (b_len _ _ _ _ _ B) in L. pose proof L as L'. rewrite <- (exec_len _ _ _ _ (b_d _ _ _ _ _ B)) in L. rewrite <- (exec_len _ _ _ _ (b_f _ _ _ _ _ B)) in L'.
  destruct (nth_error (threads (sd s)) t) as [pd|] eqn:Ed; [|apply nth_error_None in Ed; lia]. destruct (nth_error (threads (sf s)) t) as [pf|] eqn:Ef; [|apply nth_error_None in Ef; lia]. exists pd, pf. split; [reflexivity|]. split; [reflexivity|]. exact (b_ok _ _ _ _ _ B t c pd pf H Ed Ef).
Qed.
(** One thread changes its state. *)
Lemma base_frame tr s t c pd pf ev s' c' pd' pf' : base capd capf n tr s -> nth_error (cl s) t = Some c -> nth_error (threads (sd s)) t = Some pd -> nth_error (threads (sf s)) t = Some pf ->
  cl s' = upd (cl s) t c' -> threads (sd s') = upd (threads (sd s)) t pd' -> threads (sf s') = upd (threads (sf s)) t pf' ->
  exec capd n (of_d tr ++ of_d ev) (sd s') -> exec capf n (of_f tr ++ of_f ev) (sf s') -> okc c' pd' pf' -> base capd capf n (tr ++ ev) s'.
Proof.
  intros B Hc Hd Hf Ec Ed Ef Xd Xf Ok. constructor; [now rewrite of_d_app|now rewrite of_f_app|rewrite Ec, upd_length; apply B|].
  intros u cu du fu. rewrite Ec, Ed, Ef, !nth_upd. destruct (Nat.eqb_spec u t) as [->|Hu]; [|apply B].
  repeat match goal with |- context [?a <? ?b] => destruct (a <? b) end; try discriminate; intros; try discriminate. congruence.
Qed.
Lemma mem_in v l : mem v l = true -> In v l.
Proof. unfold mem. intro H. apply existsb_exists in H as (x & H & E). apply Nat.eqb_eq in E. now subst. Qed.

(** Threads that are not in a call of a ring *)
Definition rest (c : client) : Prop := match c with KIdle | KHeld _ | KFlush _ _ | KWant _ _ => True | _ => False end.
Lemma rest_ok c pd pf : rest c -> okc c pd pf -> pd = Idle /\ pf = Idle.
Proof. destruct c; intros []; cbn; auto. Qed.
Lemma classify tr s l s' ev : base capd capf n tr s -> cnext s l = Some (s', ev) ->
  base capd capf n (tr ++ ev) s' /\ exists t c c', nth_error (cl s) t = Some c /\ cl s' = upd (cl s) t c' /\ move t s s' c c' ev.
Proof.
  intros B H. pose proof (b_d _ _ _ _ _ B) as Xd. pose proof (b_f _ _ _ _ _ B) as Xf.
  (* calls, and steps that do not touch the rings *)
  assert (Cd : forall t c o c' pre x m d s2 ev2, nth_error (cl s) t = Some c -> rest c -> okc c' (start o) Idle -> of_d pre = [] -> of_f pre = [] ->
    call_d {| sd := sd s; sf := sf s; cl := cl s; st := x; mine := m; dirty := d |} t o c' pre = Some (s2, ev2) ->
    base capd capf n (tr ++ ev2) s2 /\ ev2 = pre ++ [DataE (ECall t o)] /\ cl s2 = upd (cl s) t c' /\ upto s s2 x m d (Sd s) (Sf s) (Pr s)).
  { intros t c o c' pre x m d s2 ev2 Hc Ok Ok' P1 P2 C. unfold call_d in C. cbn [sd] in C. destruct (ring_next (sd s) (LCall t o)) as [[g e]|] eqn:R; [|discriminate]. injection C as <- <-. pose proof (exec_next _ _ _ _ _ _ _ Xd R) as Ex. apply call_ring in R as (Hd & -> & ->).
    destruct (base_threads _ _ _ _ B Hc) as (pd & pf & Hd' & Hf & Ok2). destruct (rest_ok _ _ _ Ok Ok2) as [-> ->]. split; [|split; [reflexivity|split; [reflexivity|cbv [upto]; repeat split]]].
    eapply (base_frame _ s t c Idle Idle _ _ c' (start o) Idle B Hc Hd Hf); cbn [cl sd sf goto set_d threads set_thread]; try reflexivity; try assumption.
    - now rewrite upd_id.
    - rewrite of_d_app, P1. exact Ex.
    - rewrite of_f_app, P2. cbn. now rewrite app_nil_r. }
  assert (Cf : forall t c o c' pre x m d s2 ev2, nth_error (cl s) t = Some c -> rest c -> okc c' Idle (start o) -> of_d pre = [] -> of_f pre = [] ->
    call_f {| sd := sd s; sf := sf s; cl := cl s; st := x; mine := m; dirty := d |} t o c' pre = Some (s2, ev2) ->
    base capd capf n (tr ++ ev2) s2 /\ ev2 = pre ++ [FreeE (ECall t o)] /\ cl s2 = upd (cl s) t c' /\ upto s s2 x m d (Sd s) (Sf s) (Pr s)).
  { intros t c o c' pre x m d s2 ev2 Hc Ok Ok' P1 P2 C. unfold call_f in C. cbn [sf] in C. destruct (ring_next (sf s) (LCall t o)) as [[g e]|] eqn:R; [|discriminate]. injection C as <- <-. pose proof (exec_next _ _ _ _ _ _ _ Xf R) as Ex. apply call_ring in R as (Hf & -> & ->).
    destruct (base_threads _ _ _ _ B Hc) as (pd & pf & Hd & Hf' & Ok2). destruct (rest_ok _ _ _ Ok Ok2) as [-> ->]. split; [|split; [reflexivity|split; [reflexivity|cbv [upto]; repeat split]]].
    eapply (base_frame _ s t c Idle Idle _ _ c' Idle (start o) B Hc Hd Hf); cbn [cl sd sf goto set_f threads set_thread]; try reflexivity; try assumption.
    - now rewrite upd_id.
    - rewrite of_d_app, P1. cbn. now rewrite app_nil_r.
    - rewrite of_f_app, P2. exact Ex. }
  assert (Q : forall t c c' x m d ev2, nth_error (cl s) t = Some c -> rest c -> okc c' Idle Idle -> of_d ev2 = [] -> of_f ev2 = [] ->
    base capd capf n (tr ++ ev2) {| sd := sd s; sf := sf s; cl := upd (cl s) t c'; st := x; mine := m; dirty := d |}).
  { intros t c c' x m d ev2 Hc Ok Ok' P1 P2. destruct (base_threads _ _ _ _ B Hc) as (pd & pf & Hd & Hf & Ok2). destruct (rest_ok _ _ _ Ok Ok2) as [-> ->].
    eapply (base_frame _ s t c Idle Idle _ _ c' Idle Idle B Hc Hd Hf); cbn [cl sd sf]; try reflexivity; try assumption; try (now rewrite upd_id); rewrite ?P1, ?P2, app_nil_r; assumption. }
  assert (U : forall x m d c, upto s {| sd := sd s; sf := sf s; cl := c; st := x; mine := m; dirty := d |} x m d (Sd s) (Sf s) (Pr s)) by (intros; cbv [upto]; repeat split).
  assert (Same : forall x m d, base capd capf n (tr ++ []) {| sd := sd s; sf := sf s; cl := cl s; st := x; mine := m; dirty := d |}) by (intros; rewrite app_nil_r; constructor; apply B).
  destruct l as [t|t i|t|t|t|t v|t|t|t i|t v|t b|t v|t b|t sp|t sp]; cbn [cnext] in H.
  - destruct (nth_error (cl s) t) as [[]|] eqn:Hc; try discriminate. destruct (Cd _ _ OpAddProducer KNew [] (st s) (mine s) (dirty s) _ _ Hc I ltac:(cbn; auto) eq_refl eq_refl H) as (B' & -> & E & X). split; [exact B'|]. exists t, KIdle, KNew. split; [exact Hc|]. split; [exact E|]. now constructor.
  - destruct (nth_error (cl s) t) as [[]|] eqn:Hc; try discriminate. destruct (nth_error (st s) i) as [x|] eqn:Hx; [|discriminate]. destruct (c_mutex x) eqn:M; [discriminate|]. injection H as <- <-. split; [now apply (Q t KIdle (KHeld i))|]. exists t, KIdle, (KHeld i). split; [exact Hc|]. split; [reflexivity|]. apply (m_lock _ _ _ i x Hx M), U.
  - destruct (nth_error (cl s) t) as [[]|] eqn:Hc; try discriminate. destruct (nth_error (st s) i) as [x|] eqn:Hx; [|discriminate]. injection H as <- <-. split; [now apply (Q t (KHeld i) KIdle)|]. exists t, (KHeld i), KIdle. split; [exact Hc|]. split; [reflexivity|]. apply (m_unlock _ _ _ i x Hx), U.
  - destruct (nth_error (cl s) t) as [[]|] eqn:Hc; try discriminate. destruct (nth_error (st s) i) as [x|] eqn:Hx; [|discriminate]. destruct (c_done x) eqn:D; [discriminate|]. destruct (Cf _ _ OpPop (KAlloc i None) [] (st s) (mine s) (dirty s) _ _ Hc I ltac:(cbn; auto) eq_refl eq_refl H) as (B' & -> & E & X). split; [exact B'|]. exists t, (KHeld i), (KAlloc i None). split; [exact Hc|]. split; [exact E|]. now apply (m_alloc_call _ _ _ i x).
  - destruct (nth_error (cl s) t) as [[]|] eqn:Hc; try discriminate. destruct (nth_error (st s) i) as [x|] eqn:Hx; [|discriminate]. destruct (c_done x) eqn:D; [discriminate|]. destruct (c_win x) as [|v w] eqn:W; [discriminate|]. destruct (Cd _ _ (OpPush v) (KReady i v None false) [] (upd (st s) i (with_win x w)) (mine s) (dirty s) _ _ Hc I ltac:(cbn; auto 8) eq_refl eq_refl H) as (B' & -> & E & X). split; [exact B'|]. exists t, (KHeld i), (KReady i v None false). split; [exact Hc|]. split; [exact E|]. now apply (m_ready_call _ _ _ i x v w).
  - destruct (nth_error (cl s) t) as [[]|] eqn:Hc; try discriminate. destruct (nth_error (st s) i) as [x|] eqn:Hx; [|discriminate]. destruct (mem v (c_win x)) eqn:M; [|discriminate]. injection H as <- <-. split; [apply Same|]. exists t, (KHeld i), (KHeld i). split; [exact Hc|]. split; [symmetry; now apply upd_id|]. apply (m_touch _ _ _ i x v Hx (mem_in _ _ M)), U.
  - destruct (nth_error (cl s) t) as [[]|] eqn:Hc; try discriminate. destruct (nth_error (st s) i) as [x|] eqn:Hx; [|discriminate]. destruct (c_done x) eqn:D; [discriminate|]. injection H as <- <-. split; [now apply (Q t (KHeld i) (KFlush i NetStop))|]. exists t, (KHeld i), (KFlush i NetStop). split; [exact Hc|]. split; [reflexivity|]. apply (m_netstop _ _ _ i x Hx D), U.
  - destruct (nth_error (cl s) t) as [c|] eqn:Hc; [|discriminate]. destruct c; try discriminate; (destruct (nth_error (st s) i) as [x|] eqn:Hx; [|discriminate]).
    + unfold run_flush in H. destruct (c_win x) as [|v w] eqn:W.
      * destruct f.
        -- destruct (Cd _ _ OpRemoveProducer (KRemove i NetStop false) [Over i] (st s) (mine s) (dirty s) _ _ Hc I ltac:(cbn; auto) eq_refl eq_refl H) as (B' & -> & E & X). split; [exact B'|]. exists t, (KFlush i NetStop), (KRemove i NetStop false). split; [exact Hc|]. split; [exact E|]. now apply (m_over _ _ _ i NetStop x).
        -- injection H as <- <-. split; [now apply (Q t (KFlush i UserFlush) (KWant i P2))|]. exists t, (KFlush i UserFlush), (KWant i P2). split; [exact Hc|]. split; [reflexivity|]. apply (m_flushed _ _ _ i x Hx W), U.
        -- destruct (Cd _ _ OpRemoveProducer (KRemove i UserStop false) [Over i] (st s) (mine s) (dirty s) _ _ Hc I ltac:(cbn; auto) eq_refl eq_refl H) as (B' & -> & E & X). split; [exact B'|]. exists t, (KFlush i UserStop), (KRemove i UserStop false). split; [exact Hc|]. split; [exact E|]. now apply (m_over _ _ _ i UserStop x).
      * destruct (Cd _ _ (OpPush v) (KReady i v (Some f) false) [] (upd (st s) i (with_win x w)) (mine s) (dirty s) _ _ Hc I ltac:(cbn; auto 8) eq_refl eq_refl H) as (B' & -> & E & X). split; [exact B'|]. exists t, (KFlush i f), (KReady i v (Some f) false). split; [exact Hc|]. split; [exact E|]. now apply (m_flush _ _ _ i f x v w).
    + destruct (c_mutex x) eqn:M; [discriminate|]. unfold run_want in H. destruct ph.
      * injection H as <- <-. split; [now apply (Q t (KWant i P1) (KFlush i UserFlush))|]. exists t, (KWant i P1), (KFlush i UserFlush). split; [exact Hc|]. split; [reflexivity|]. apply (m_want1 _ _ _ i x Hx M), U.
      * destruct (c_done x) eqn:D; injection H as <- <-.
        -- split; [now apply (Q t (KWant i P2) (KWant i P3))|]. exists t, (KWant i P2), (KWant i P3). split; [exact Hc|]. split; [reflexivity|]. apply (m_want2 _ _ _ i x Hx M D), U.
        -- split; [now apply (Q t (KWant i P2) (KFlush i UserStop))|]. exists t, (KWant i P2), (KFlush i UserStop). split; [exact Hc|]. split; [reflexivity|]. apply (m_want2' _ _ _ i x Hx M D), U.
      * injection H as <- <-. split; [apply (Q t (KWant i P3) KIdle); [exact Hc|exact I|now split|rewrite of_d_app, of_d_freed; reflexivity|rewrite of_f_app, of_f_freed; reflexivity]|]. exists t, (KWant i P3), KIdle. split; [exact Hc|]. split; [reflexivity|]. apply (m_want3 _ _ _ i x Hx M), U.
  - destruct (nth_error (cl s) t) as [[]|] eqn:Hc; try discriminate. destruct (nth_error (st s) i) as [x|] eqn:Hx; [|discriminate]. destruct (Cf _ _ OpStop (KStopFree i) [StopCall i] (st s) (mine s) (dirty s) _ _ Hc I ltac:(cbv [okc stopst start]; auto) eq_refl eq_refl H) as (B' & -> & E & X). split; [exact B'|]. exists t, KIdle, (KStopFree i). split; [exact Hc|]. split; [exact E|]. now apply (m_stop_call _ _ _ i x).
  - destruct (nth_error (cl s) t) as [[]|] eqn:Hc; try discriminate. destruct (mem v (mine s)) eqn:M; [|discriminate]. destruct (Cf _ _ (OpTryPush v) (KAdd v false) [] (st s) (remove1 v (mine s)) (remove_all v (dirty s)) _ _ Hc I ltac:(cbn; auto 8) eq_refl eq_refl H) as (B' & -> & E & X). split; [exact B'|]. exists t, KIdle, (KAdd v false). split; [exact Hc|]. split; [exact E|]. apply m_add_call; [now apply mem_in|exact X].
  - destruct (nth_error (cl s) t) as [[]|] eqn:Hc; try discriminate. destruct (Cd _ _ (if b then OpTryPop else OpPop) (KGet b None) [] (st s) (mine s) (dirty s) _ _ Hc I ltac:(destruct b; cbn; auto 8) eq_refl eq_refl H) as (B' & -> & E & X). split; [exact B'|]. exists t, KIdle, (KGet b None). split; [exact Hc|]. split; [exact E|]. now constructor.
  - destruct (nth_error (cl s) t) as [[]|] eqn:Hc; try discriminate. destruct (mem v (mine s)) eqn:M; [|discriminate]. injection H as <- <-. split; [apply Same|]. exists t, KIdle, KIdle. split; [exact Hc|]. split; [symmetry; now apply upd_id|]. apply (m_use _ _ _ v (mem_in _ _ M)), U.
  - destruct (nth_error (cl s) t) as [[]|] eqn:Hc; try discriminate. destruct b.
    + destruct (Cd _ _ OpStop (KExt true) [ExtStop] (st s) (mine s) (dirty s) _ _ Hc I ltac:(cbv [okc stopst start]; auto) eq_refl eq_refl H) as (B' & -> & E & X). split; [exact B'|]. exists t, KIdle, (KExt true). split; [exact Hc|]. split; [exact E|]. now constructor.
    + destruct (Cf _ _ OpStop (KExt false) [ExtStop] (st s) (mine s) (dirty s) _ _ Hc I ltac:(cbv [okc stopst start]; auto) eq_refl eq_refl H) as (B' & -> & E & X). split; [exact B'|]. exists t, KIdle, (KExt false). split; [exact Hc|]. split; [exact E|]. now constructor.
  - (* the data ring *) clear Cd Cf Q U Same. destruct (ring_next (sd s) (LStep t sp)) as [[g e]|] eqn:R; [|discriminate]. destruct (nth_error (cl s) t) as [c|] eqn:Hc; [|discriminate].
    pose proof (exec_next _ _ _ _ _ _ _ Xd R) as Ex. cbn [ring_next] in R. destruct (step_info _ _ _ _ _ R) as (p & p' & Hp & Tp & Tr & Sg & Pg & Rg). destruct (base_threads _ _ _ _ B Hc) as (pd & pf & Hd & Hf & Ok). assert (pd = p) by congruence. subst pd. clear Hd.
    assert (F : forall c' x m d ev2, of_d ev2 = e -> of_f ev2 = [] -> okc c' p' pf -> base capd capf n (tr ++ ev2) {| sd := g; sf := sf s; cl := upd (cl s) t c'; st := x; mine := m; dirty := d |}).
    { intros c' x m d ev2 E1 E2 Ok'. eapply (base_frame _ s t c p pf _ _ c' p' pf B Hc Hp Hf); cbn [cl sd sf]; try reflexivity; try assumption; [now rewrite upd_id|now rewrite E1|now rewrite E2, app_nil_r]. }
    assert (G : forall c' ev2 s2, s' = s2 -> ev = ev2 -> base capd capf n (tr ++ ev2) s2 -> cl s2 = upd (cl s) t c' -> move t s s2 c c' ev2 ->
      base capd capf n (tr ++ ev) s' /\ exists t c c', nth_error (cl s) t = Some c /\ cl s' = upd (cl s) t c' /\ move t s s' c c' ev).
    { intros c' ev2 s2 -> -> A1 A2 A3. split; [exact A1|]. exists t, c, c'. auto. }
    assert (Stop : forall q, wSD q = 1 -> p = q -> Sd s = true) by (intros q W ->; exact (stop_pc_stopped _ _ _ _ _ _ Xd Hp W)).
    assert (Pl : forall b, p = StopTail b -> True) by auto.
    destruct c as [| |i|i got|i v k sent|i f|i f eff|i|i|i ph|v sent|b got|b].
    + destruct Ok as [-> _]. destruct Tr.
    + destruct Ok as [-> ->]. destruct Tr as [-> ->]. injection H as <- <-. eapply G; [reflexivity|reflexivity|apply F; [reflexivity|reflexivity|now split]|reflexivity|]. apply m_new. cbv [upto]. auto 10.
    + destruct Ok as [-> _]. destruct Tr.
    + destruct Ok as [-> _]. destruct Tr.
    + (* push *) destruct Ok as (Ok & Nt & ->). destruct sent; cbn [pushst] in Ok.
      * subst p. destruct Tr as [-> ->]. injection H as <- <-. eapply G; [reflexivity|reflexivity|apply F; [reflexivity|reflexivity|destruct k; now split]|reflexivity|]. apply m_pushed. cbv [upto]. auto 10.
      * destruct Ok as [->|[->|[->|[->| ->]]]]; try (destruct Nt; fail).
        -- destruct Tr as [-> ->]. injection H as <- <-. eapply (G (KReady i v k false)); [reflexivity|reflexivity| |symmetry; now apply upd_id|apply m_stut; cbv [upto]; auto 10]. replace (set_d g s) with {| sd := g; sf := sf s; cl := upd (cl s) t (KReady i v k false); st := st s; mine := mine s; dirty := dirty s |} by (now rewrite upd_id by exact Hc). apply F; [reflexivity|reflexivity|cbn; auto].
        -- destruct Tr as [(St & -> & ->)|(St & -> & ->)]; cbn [effect] in H; injection H as <- <-.
           ++ eapply (G (KReady i v k false)); [reflexivity|reflexivity| |symmetry; now apply upd_id|apply m_stut; cbv [upto]; auto 10]. replace (set_d g s) with {| sd := g; sf := sf s; cl := upd (cl s) t (KReady i v k false); st := st s; mine := mine s; dirty := dirty s |} by (now rewrite upd_id by exact Hc). apply F; [reflexivity|reflexivity|cbn; auto].
           ++ eapply (G (KReady i v k true)); [reflexivity|reflexivity|apply F; [reflexivity|reflexivity|cbn; auto]|reflexivity|]. apply m_push; [exact St|]. cbv [upto]. rewrite St in Sg. auto 10.
        -- destruct Tr as [-> ->]. pose proof (undo_stopped Nat.eq_dec _ _ _ _ _ Xd Hp) as St. cbn [returned_d] in H. change (st (set_d g s)) with (st s) in H. destruct (nth_error (st s) i) as [x|] eqn:Hx; [|discriminate]. injection H as <- <-. eapply (G (back i k)); [reflexivity|reflexivity|apply F; [reflexivity|reflexivity|destruct k; now split]|reflexivity|]. apply (m_buried _ _ _ i v k x Hx St). cbv [upto]. rewrite <- St. auto 10.
    + destruct Ok as [-> _]. destruct Tr.
    + (* remove_producer *) destruct Ok as [Ok ->]. destruct eff; cbn [remst] in Ok.
      * destruct Ok as [(k & ->)|[->| ->]].
        -- destruct Tr as [-> ->]. injection H as <- <-. eapply (G (KRemove i f true)); [reflexivity|reflexivity| |symmetry; now apply upd_id|apply m_stut; cbv [upto]; auto 10]. replace (set_d g s) with {| sd := g; sf := sf s; cl := upd (cl s) t (KRemove i f true); st := st s; mine := mine s; dirty := dirty s |} by (now rewrite upd_id by exact Hc). apply F; [reflexivity|reflexivity|cbn; auto].
        -- destruct Tr as [-> ->]. injection H as <- <-. eapply (G (KRemove i f true)); [reflexivity|reflexivity| |symmetry; now apply upd_id|apply m_stut; cbv [upto]; auto 10]. replace (set_d g s) with {| sd := g; sf := sf s; cl := upd (cl s) t (KRemove i f true); st := st s; mine := mine s; dirty := dirty s |} by (now rewrite upd_id by exact Hc). apply F; [reflexivity|reflexivity|cbn; auto].
        -- destruct Tr as [-> ->]. cbn [returned_d] in H. change (st (set_d g s)) with (st s) in H. destruct (nth_error (st s) i) as [x|] eqn:Hx; [|discriminate]. injection H as <- <-. eapply G; [reflexivity|reflexivity|apply F; [reflexivity|reflexivity|destruct f; now split]|reflexivity|]. apply (m_removed _ _ _ i f true x true Hx); [discriminate|]. cbv [upto]. auto 10.
      * subst p. destruct (Rg eq_refl) as [R1 R2]. destruct Tr as [[-> ->]|(k & -> & ->)].
        -- cbn [returned_d] in H. change (st (set_d g s)) with (st s) in H. destruct (nth_error (st s) i) as [x|] eqn:Hx; [|discriminate]. injection H as <- <-. eapply G; [reflexivity|reflexivity|apply F; [reflexivity|reflexivity|destruct f; now split]|reflexivity|]. apply (m_removed _ _ _ i f false x false Hx); [intros _; apply R2; discriminate|]. cbv [upto]. auto 10.
        -- cbn [effect] in H. injection H as <- <-. eapply (G (KRemove i f true)); [reflexivity|reflexivity|apply F; [reflexivity|reflexivity|cbn; eauto]|reflexivity|]. apply m_last; [now apply R1|]. cbv [upto]. auto 10.
    + destruct Ok as [-> _]. destruct Tr.
    + (* stop *) destruct Ok as [[->|[(k & ->)|[->| ->]]] ->].
      * destruct Tr as [[-> ->]|(k & -> & ->)]; [exfalso; unfold step in R; rewrite Hp in R; cbn in R; discriminate|]. cbn [effect] in H. injection H as <- <-. eapply (G (KStopData i)); [reflexivity|reflexivity|apply F; [reflexivity|reflexivity|cbv [okc stopst]; eauto]|reflexivity|]. apply m_stop_d; [eauto|]. cbv [upto]. auto 10.
      * destruct Tr as [-> ->]. injection H as <- <-. eapply (G (KStopData i)); [reflexivity|reflexivity| |symmetry; now apply upd_id|apply m_stut; cbv [upto]; auto 10]. replace (set_d g s) with {| sd := g; sf := sf s; cl := upd (cl s) t (KStopData i); st := st s; mine := mine s; dirty := dirty s |} by (now rewrite upd_id by exact Hc). apply F; [reflexivity|reflexivity|cbv [okc stopst]; auto].
      * destruct Tr as [-> ->]. injection H as <- <-. eapply (G (KStopData i)); [reflexivity|reflexivity| |symmetry; now apply upd_id|apply m_stut; cbv [upto]; auto 10]. replace (set_d g s) with {| sd := g; sf := sf s; cl := upd (cl s) t (KStopData i); st := st s; mine := mine s; dirty := dirty s |} by (now rewrite upd_id by exact Hc). apply F; [reflexivity|reflexivity|cbv [okc stopst]; auto].
      * destruct Tr as [-> ->]. pose proof (Stop _ (eq_refl : wSD StopData = 1) eq_refl) as St. injection H as <- <-. eapply (G (KWant i P1)); [reflexivity|reflexivity|apply F; [reflexivity|reflexivity|now split]|reflexivity|]. apply (m_stopped_d _ _ _ i St). cbv [upto]. rewrite <- St. auto 10.
    + destruct Ok as [-> _]. destruct Tr.
    + destruct Ok as [-> _]. destruct Tr.
    + (* pop *) destruct Ok as [Ok ->]. destruct got as [v|]; cbn [popst] in Ok.
      * subst p. destruct Tr as [-> ->]. injection H as <- <-. eapply (G KIdle); [reflexivity|reflexivity|apply F; [reflexivity|reflexivity|now split]|reflexivity|]. apply m_popped. cbv [upto]. auto 10.
      * assert (Pg' : producers g = Pr s) by (destruct Ok as [->|[->|[->|[->| ->]]]]; exact Pg). assert (Stu : forall q, e = [] -> p' = q -> popst None q -> base capd capf n (tr ++ ev) s' /\ exists t c c', nth_error (cl s) t = Some c /\ cl s' = upd (cl s) t c' /\ move t s s' c c' ev).
        { intros q -> -> Q'. injection H as <- <-. eapply (G (KGet b None)); [reflexivity|reflexivity| |symmetry; now apply upd_id|apply m_stut; cbv [upto]; auto 10]. replace (set_d g s) with {| sd := g; sf := sf s; cl := upd (cl s) t (KGet b None); st := st s; mine := mine s; dirty := dirty s |} by (now rewrite upd_id by exact Hc). apply F; [reflexivity|reflexivity|now split]. }
        destruct Ok as [->|[->|[->|[->| ->]]]].
        -- destruct Tr as [-> ->]. apply (Stu PopHave); cbn; auto.
        -- destruct Tr as [[-> ->]|(v & -> & ->)]; [apply (Stu PopUndo); cbn; auto|]. cbn [effect] in H. injection H as <- <-. eapply (G (KGet b (Some v))); [reflexivity|reflexivity|apply F; [reflexivity|reflexivity|now split]|reflexivity|]. apply m_pop. cbv [upto]. auto 10.
        -- destruct Tr as [-> ->]. injection H as <- <-. eapply (G KIdle); [reflexivity|reflexivity|apply F; [reflexivity|reflexivity|now split]|reflexivity|]. apply m_nopop. cbv [upto]. auto 10.
        -- destruct Tr as [[->| ->] ->]; [apply (Stu PopHave)|apply (Stu TryPopFail)]; cbn; auto 8.
        -- destruct Tr as [-> [->| ->]]; injection H as <- <-; (eapply (G KIdle); [reflexivity|reflexivity|apply F; [reflexivity|reflexivity|now split]|reflexivity|]; apply m_nopop; cbv [upto]; auto 10).
    + destruct b; [|destruct Ok as [-> _]; destruct Tr]. destruct Ok as [[->|[(k & ->)|[->| ->]]] ->].
      * destruct Tr as [[-> ->]|(k & -> & ->)]; [exfalso; unfold step in R; rewrite Hp in R; cbn in R; discriminate|]. cbn [effect] in H. injection H as <- <-. eapply (G (KExt true)); [reflexivity|reflexivity|apply F; [reflexivity|reflexivity|cbv [okc stopst]; eauto]|reflexivity|]. apply m_stop_d; [eauto|]. cbv [upto]. auto 10.
      * destruct Tr as [-> ->]. injection H as <- <-. eapply (G (KExt true)); [reflexivity|reflexivity| |symmetry; now apply upd_id|apply m_stut; cbv [upto]; auto 10]. replace (set_d g s) with {| sd := g; sf := sf s; cl := upd (cl s) t (KExt true); st := st s; mine := mine s; dirty := dirty s |} by (now rewrite upd_id by exact Hc). apply F; [reflexivity|reflexivity|cbv [okc stopst]; auto].
      * destruct Tr as [-> ->]. injection H as <- <-. eapply (G (KExt true)); [reflexivity|reflexivity| |symmetry; now apply upd_id|apply m_stut; cbv [upto]; auto 10]. replace (set_d g s) with {| sd := g; sf := sf s; cl := upd (cl s) t (KExt true); st := st s; mine := mine s; dirty := dirty s |} by (now rewrite upd_id by exact Hc). apply F; [reflexivity|reflexivity|cbv [okc stopst]; auto].
      * destruct Tr as [-> ->]. injection H as <- <-. eapply (G KIdle); [reflexivity|reflexivity|apply F; [reflexivity|reflexivity|now split]|reflexivity|]. apply m_ext_d_ret. cbv [upto]. auto 10.
  - (* the free ring *) clear Cd Cf Q U Same. destruct (ring_next (sf s) (LStep t sp)) as [[g e]|] eqn:R; [|discriminate]. destruct (nth_error (cl s) t) as [c|] eqn:Hc; [|discriminate].
    pose proof (exec_next _ _ _ _ _ _ _ Xf R) as Ex. cbn [ring_next] in R. destruct (step_info _ _ _ _ _ R) as (p & p' & Hp & Tp & Tr & Sg & Pg & Rg). destruct (base_threads _ _ _ _ B Hc) as (pd & pf & Hd & Hf & Ok). assert (pf = p) by congruence. subst pf. clear Hf.
    assert (F : forall c' x m d ev2, of_f ev2 = e -> of_d ev2 = [] -> okc c' pd p' -> base capd capf n (tr ++ ev2) {| sd := sd s; sf := g; cl := upd (cl s) t c'; st := x; mine := m; dirty := d |}).
    { intros c' x m d ev2 E1 E2 Ok'. eapply (base_frame _ s t c pd p _ _ c' pd p' B Hc Hd Hp); cbn [cl sd sf]; try reflexivity; try assumption; [now rewrite upd_id|now rewrite E2, app_nil_r|now rewrite E1]. }
    assert (G : forall c' ev2 s2, s' = s2 -> ev = ev2 -> base capd capf n (tr ++ ev2) s2 -> cl s2 = upd (cl s) t c' -> move t s s2 c c' ev2 ->
      base capd capf n (tr ++ ev) s' /\ exists t c c', nth_error (cl s) t = Some c /\ cl s' = upd (cl s) t c' /\ move t s s' c c' ev).
    { intros c' ev2 s2 -> -> A1 A2 A3. split; [exact A1|]. exists t, c, c'. auto. }
    assert (Stop : forall q, wSD q = 1 -> p = q -> Sf s = true) by (intros q W ->; exact (stop_pc_stopped _ _ _ _ _ _ Xf Hp W)).
    assert (Stu : e = [] -> okc c pd p' -> base capd capf n (tr ++ ev) s' /\ exists t c c', nth_error (cl s) t = Some c /\ cl s' = upd (cl s) t c' /\ move t s s' c c' ev).
    { intros -> Q'. injection H as <- <-. eapply (G c); [reflexivity|reflexivity| |symmetry; now apply upd_id|apply m_stut; cbv [upto]; auto 10]. replace (set_f g s) with {| sd := sd s; sf := g; cl := upd (cl s) t c; st := st s; mine := mine s; dirty := dirty s |} by (now rewrite upd_id by exact Hc). apply F; [reflexivity|reflexivity|exact Q']. }
    destruct c as [| |i|i got|i v k sent|i f|i f eff|i|i|i ph|v sent|b got|b].
    + destruct Ok as [_ ->]. destruct Tr.
    + destruct Ok as [_ ->]. destruct Tr.
    + destruct Ok as [_ ->]. destruct Tr.
    + (* allocate *) destruct Ok as (-> & Ok & Nt). destruct got as [v|]; cbn [popst] in Ok.
      * subst p. destruct Tr as [-> ->]. cbn [returned_f] in H. change (st (set_f g s)) with (st s) in H. destruct (nth_error (st s) i) as [x|] eqn:Hx; [|discriminate]. injection H as <- <-. eapply (G (KHeld i)); [reflexivity|reflexivity|apply F; [reflexivity|reflexivity|now split]|reflexivity|]. apply (m_alloc _ _ _ i v x Hx). cbv [upto]. auto 10.
      * destruct Ok as [->|[->|[->|[->| ->]]]]; try (destruct Nt; fail).
        -- destruct Tr as [-> ->]. apply Stu; cbn; auto 8.
        -- destruct Tr as [[-> ->]|(v & -> & ->)]; [apply Stu; cbn; auto 8|]. cbn [effect] in H. injection H as <- <-. eapply (G (KAlloc i (Some v))); [reflexivity|reflexivity|apply F; [reflexivity|reflexivity|cbn; auto]|reflexivity|]. apply m_fpop. cbv [upto]. auto 10.
        -- destruct Tr as [-> ->]. injection H as <- <-. eapply (G (KHeld i)); [reflexivity|reflexivity|apply F; [reflexivity|reflexivity|now split]|reflexivity|]. apply m_noalloc. cbv [upto]. auto 10.
    + destruct Ok as (_ & _ & ->). destruct Tr.
    + destruct Ok as [_ ->]. destruct Tr.
    + destruct Ok as [_ ->]. destruct Tr.
    + (* stop *) destruct Ok as [-> [->|[(k & ->)|[->| ->]]]].
      * destruct Tr as [[-> ->]|(k & -> & ->)]; [exfalso; unfold step in R; rewrite Hp in R; cbn in R; discriminate|]. cbn [effect] in H. injection H as <- <-. eapply (G (KStopFree i)); [reflexivity|reflexivity|apply F; [reflexivity|reflexivity|cbv [okc stopst]; eauto]|reflexivity|]. apply m_stop_f; [eauto|]. cbv [upto]. auto 10.
      * destruct Tr as [-> ->]. apply Stu; cbv [okc stopst]; auto.
      * destruct Tr as [-> ->]. apply Stu; cbv [okc stopst]; auto.
      * destruct Tr as [-> ->]. pose proof (Stop _ (eq_refl : wSD StopData = 1) eq_refl) as St. cbn [returned_f] in H. unfold call_d in H. cbn [sd set_f] in H. destruct (ring_next (sd s) (LCall t OpStop)) as [[g2 e2]|] eqn:R2; [|discriminate]. injection H as <- <-. pose proof (exec_next _ _ _ _ _ _ _ Xd R2) as Ex2. apply call_ring in R2 as (_ & -> & ->).
        eapply (G (KStopData i)); [reflexivity|reflexivity| |reflexivity|apply (m_stopped_f _ _ _ i St); cbv [upto]; rewrite <- St; auto 10].
        eapply (base_frame _ s t (KStopFree i) Idle StopData _ _ (KStopData i) (StopTail false) Idle B Hc Hd Hp); cbn [cl sd sf goto set_d set_f threads set_thread]; try reflexivity; try assumption. cbv [okc stopst]. auto.
    + destruct Ok as [_ ->]. destruct Tr.
    + destruct Ok as [_ ->]. destruct Tr.
    + (* add *) destruct Ok as (-> & Ok). destruct sent; cbn [pushst] in Ok.
      * subst p. destruct Tr as [-> ->]. injection H as <- <-. eapply (G KIdle); [reflexivity|reflexivity|apply F; [reflexivity|reflexivity|now split]|reflexivity|]. apply m_fpushed. cbv [upto]. auto 10.
      * destruct Ok as [->|[->|[->|[->| ->]]]].
        -- destruct Tr as [-> ->]. apply Stu; cbn; auto 8.
        -- destruct Tr as [(St & -> & ->)|(St & -> & ->)]; [apply Stu; cbn; auto 8|]. cbn [effect] in H. injection H as <- <-. eapply (G (KAdd v true)); [reflexivity|reflexivity|apply F; [reflexivity|reflexivity|now split]|reflexivity|]. apply m_fpush. cbv [upto]. auto 10.
        -- destruct Tr as [-> ->]. injection H as <- <-. eapply (G KIdle); [reflexivity|reflexivity|apply F; [reflexivity|reflexivity|now split]|reflexivity|]. apply m_fnot. cbv [upto]. auto 10.
        -- destruct Tr as [[->| ->] ->]; apply Stu; cbn; auto 8.
        -- destruct Tr as [-> ->]. destruct (Sf s) eqn:St; injection H as <- <-; (eapply (G KIdle); [reflexivity|reflexivity|apply F; [reflexivity|reflexivity|now split]|reflexivity|]; apply m_fnot; cbv [upto]; repeat split; cbn; congruence).
    + destruct Ok as [_ ->]. destruct Tr.
    + destruct b; [destruct Ok as [_ ->]; destruct Tr|]. destruct Ok as [-> [->|[(k & ->)|[->| ->]]]].
      * destruct Tr as [[-> ->]|(k & -> & ->)]; [exfalso; unfold step in R; rewrite Hp in R; cbn in R; discriminate|]. cbn [effect] in H. injection H as <- <-. eapply (G (KExt false)); [reflexivity|reflexivity|apply F; [reflexivity|reflexivity|cbv [okc stopst]; eauto]|reflexivity|]. apply m_stop_f; [eauto|]. cbv [upto]. auto 10.
      * destruct Tr as [-> ->]. apply Stu; cbv [okc stopst]; auto.
      * destruct Tr as [-> ->]. apply Stu; cbv [okc stopst]; auto.
      * destruct Tr as [-> ->]. injection H as <- <-. eapply (G KIdle); [reflexivity|reflexivity|apply F; [reflexivity|reflexivity|now split]|reflexivity|]. apply m_ext_f_ret. cbv [upto]. auto 10.
Qed.
End Base.
