(** C56: heaps made by a HeapGenerator keep a receiver up to date. *)
From Coq Require Import ZArith List Bool Lia.
From Verif Require Import ItemGroupModel ItemGroupSpec ItemGroupProps HeapGenSpec.
Import ListNotations.
Open Scope Z_scope.

(** *** What happens to the objects of a group *)
Lemma obj_lt g o x : obj g o = Some x -> (o < length (g_objs g))%nat.
Proof. unfold obj. intro H. apply nth_error_Some. congruence. Qed.
Definition evolves (x x' : item) : Prop := it_id x' = it_id x /\ it_name x' = it_name x /\ it_desc x' = it_desc x /\ newer x x' /\ (it_value x <> None -> it_value x' <> None).
Lemma evolves_refl x : evolves x x. Proof. repeat split; auto; [lia|congruence]. Qed.
Lemma put_evolves g o x y p z : obj g o = Some x -> evolves x y -> obj g p = Some z -> exists z', obj (put g o y) p = Some z' /\ evolves z z'.
Proof. intros E V H. rewrite obj_put. destruct (Nat.eqb_spec p o) as [->|]; [|exists z; split; [exact H|apply evolves_refl]]. rewrite E in *. injection H as <-. eauto. Qed.
Lemma with_value_evolves x v : evolves x (with_value x v). Proof. unfold evolves, newer, with_value. cbn. repeat split; try lia. discriminate. Qed.
Lemma add_evolves g x g' : consistent g -> add_item_obj g x = Some g' ->
  (forall o z, obj g o = Some z -> exists z', obj g' o = Some z' /\ evolves z z') /\ (forall k o, lookup k (g_id g') = Some o -> (o < length (g_objs g))%nat -> lookup k (g_id g) = Some o).
Proof.
  intros C E. destruct (add_spec g x C) as (g1 & E1 & _ & H). rewrite E in E1. injection E1 as <-. destruct H as [(o & y & L & Eo & S & ->)|(_ & Hi & _ & n & _ & _ & _ & Ob)].
  - assert (P : forall p z, obj g p = Some z -> obj (push g x) p = Some z) by (intros p z; now apply (obj_app g (push g x) x)). split.
    + intros p z Hz. destruct (it_value x) as [v|]; [|exists z; split; [auto|apply evolves_refl]]. apply (put_evolves (push g x) o y); auto using with_value_evolves.
    + intros k p. destruct (it_value x); cbn [put push g_id]; auto.
  - split; [intros p z Hz; exists z; split; [now apply (obj_app _ _ _ _ _ Ob)|apply evolves_refl]|]. intros k o. rewrite Hi. destruct (k =? it_id x); [intro H; injection H as <-; lia|]. destruct (by_id g k) as [y|]; [|discriminate]. destruct (it_name y =? it_name x); [discriminate|auto].
Qed.
Lemma step_evolves g p g' : consistent g -> step g p = Some g' ->
  (forall o z, obj g o = Some z -> exists z', obj g' o = Some z' /\ evolves z z') /\ (forall k o, lookup k (g_id g') = Some o -> (o < length (g_objs g))%nat -> lookup k (g_id g) = Some o).
Proof.
  intros C S. assert (Id : (forall o z, obj g o = Some z -> exists z', obj g o = Some z' /\ evolves z z') /\ (forall k o, lookup k (g_id g) = Some o -> (o < length (g_objs g))%nat -> lookup k (g_id g) = Some o)) by (split; [intros o z H; exists z; split; [exact H|apply evolves_refl]|auto]).
  destruct p as [id name desc v|id name desc|id v|o v]; cbn [step] in S.
  - unfold add_item in S. eapply add_evolves; eauto.
  - eapply add_evolves; eauto.
  - injection S as <-. unfold update_item. destruct (id <=? stream_ctrl_id); [exact Id|]. destruct (lookup id (g_id g)) as [o|]; [|exact Id]. destruct (obj g o) as [x|] eqn:E; [|exact Id]. split; [|cbn [put g_id]; auto]. intros q z. apply (put_evolves g o x); [exact E|]. unfold evolves, newer. cbn. repeat split; try lia. discriminate.
  - injection S as <-. unfold set_value. destruct (obj g o) as [x|] eqn:E; [|exact Id]. split; [|cbn [put g_id]; auto]. intros q z. apply (put_evolves g o x); [exact E|apply with_value_evolves].
Qed.

(** *** Receiving a heap *)
Lemma add_descr_spec r id name desc : consistent r -> exists r', add_item_obj r (new_item id name desc None) = Some r' /\ consistent r' /\
  (exists y, by_id r' id = Some y /\ it_name y = name /\ it_desc y = desc /\ (forall y0, by_id r id = Some y0 -> it_name y0 = name -> it_desc y0 = desc -> y = y0)) /\
  (forall k y, by_id r k = Some y -> k <> id -> it_name y <> name -> by_id r' k = Some y).
Proof.
  intro C. set (x := new_item id name desc None). destruct (add_spec r x C) as (r' & E & C' & H). exists r'. split; [exact E|]. split; [exact C'|]. cbn [x new_item it_id it_name it_desc it_value it_version] in H. destruct H as [(o & z & L & Eo & S & ->)|(Nd & Hi & _ & n & _ & _ & _ & Ob)].
  - assert (P : forall p z, obj r p = Some z -> obj (push r x) p = Some z) by (intros p w; now apply (obj_app r (push r x) x)). destruct S as (S1 & S2 & S3). split.
    + exists z. unfold by_id. cbn [push g_id]. rewrite L. split; [auto|]. split; [now rewrite <- S2|]. split; [now rewrite <- S3|]. intros y0 H _ _. congruence.
    + intros k y H _ _. unfold by_id in *. cbn [push g_id]. destruct (lookup k (g_id r)) as [p|]; [auto|discriminate].
  - split.
    + exists (with_version x n). unfold by_id. rewrite Hi, Z.eqb_refl, (obj_last r r' _ Ob). split; [reflexivity|]. split; [reflexivity|]. split; [reflexivity|]. intros y0 H H1 H2. exfalso. apply (Nd y0 H). fold (by_id r id) in H. unfold by_id in H. destruct (lookup id (g_id r)) as [p|] eqn:L; [|discriminate]. destruct (c_id _ C _ _ L) as (w & W1 & W2 & _). rewrite H in W1. injection W1 as <-. repeat split; cbn; auto.
    + intros k y H N1 N2. unfold by_id. rewrite Hi. destruct (Z.eqb_spec k id); [contradiction|]. rewrite H. destruct (Z.eqb_spec (it_name y) name); [contradiction|]. unfold by_id in H. destruct (lookup k (g_id r)) as [p|]; [|discriminate]. now apply (obj_app _ _ _ _ _ Ob).
Qed.
Definition d_id (d : Z * Z * Z) : Z := fst (fst d).
Definition d_name (d : Z * Z * Z) : Z := snd (fst d).
Lemma add_descrs_spec ds : forall r, consistent r -> NoDup (map d_id ds) -> NoDup (map d_name ds) -> exists r', add_descrs r ds = Some r' /\ consistent r' /\
  (forall id name desc, In (id, name, desc) ds -> exists y, by_id r' id = Some y /\ it_name y = name /\ it_desc y = desc /\ (forall y0, by_id r id = Some y0 -> it_name y0 = name -> it_desc y0 = desc -> y = y0)) /\
  (forall k y, by_id r k = Some y -> ~ In k (map d_id ds) -> ~ In (it_name y) (map d_name ds) -> by_id r' k = Some y).
Proof.
  induction ds as [|[[id name] desc] ds IH]; intros r C N1 N2; cbn [add_descrs map] in *; [exists r; split; [reflexivity|]; split; [exact C|]; split; [intros ? ? ? []|auto]|]. inversion N1 as [|? ? M1 N1']; inversion N2 as [|? ? M2 N2']; subst. unfold d_id at 1 in M1. unfold d_name at 1 in M2. cbn [fst snd] in *.
  destruct (add_descr_spec r id name desc C) as (r1 & -> & C1 & (y & Y1 & Y2 & Y3 & Y4) & O1). destruct (IH r1 C1 N1' N2') as (r' & -> & C' & A & O). exists r'. split; [reflexivity|]. split; [exact C'|]. split.
  - intros id' name' desc' [H|H].
    + injection H as <- <- <-. exists y. split; [|auto]. apply O; auto. now rewrite Y2.
    + destruct (A _ _ _ H) as (z & Z1 & Z2 & Z3 & Z4). exists z. split; [exact Z1|]. split; [exact Z2|]. split; [exact Z3|]. intros y0 H0 E1 E2. apply Z4; auto. apply O1; auto; [intros ->; apply M1; apply (in_map d_id) in H; exact H|rewrite E1; intros ->; apply M2; apply (in_map d_name) in H; exact H].
  - intros k z Hz K1 K2. cbn [In] in K1, K2. apply O; [apply O1; auto|tauto|tauto]; intro; subst; tauto.
Qed.
Lemma update_item_spec r id v : consistent r -> forall k y, by_id r k = Some y -> exists y', by_id (update_item r id v) k = Some y' /\ it_name y' = it_name y /\ it_desc y' = it_desc y /\ (k <> id -> y' = y) /\ (k = id -> stream_ctrl_id < k -> it_value y' = Some v).
Proof.
  intros C k y H. unfold update_item. destruct (Z.leb_spec id stream_ctrl_id); [exists y; repeat split; auto; intros; subst; lia|]. destruct (lookup id (g_id r)) as [o|] eqn:L.
  - destruct (c_id _ C _ _ L) as (x & X1 & X2 & _). rewrite X1. unfold by_id in *. cbn [put g_id]. destruct (lookup k (g_id r)) as [p|] eqn:Lk; [|discriminate]. rewrite obj_put. destruct (Nat.eqb_spec p o) as [->|Np].
    + rewrite X1 in *. injection H as <-. eexists. split; [reflexivity|]. cbn. repeat split. destruct (c_id _ C _ _ Lk) as (x' & X1' & X2' & _). intro. congruence.
    + exists y. repeat split; auto. intros ->. congruence.
  - exists y. repeat split; auto. intros ->. unfold by_id in H. rewrite L in H. discriminate.
Qed.
Lemma items_spec l : forall r, consistent r -> NoDup (map fst l) -> let r' := fold_left (fun g x => update_item g (fst x) (snd x)) l r in consistent r' /\
  forall k y, by_id r k = Some y -> exists y', by_id r' k = Some y' /\ it_name y' = it_name y /\ it_desc y' = it_desc y /\ (~ In k (map fst l) -> y' = y) /\ (forall v, In (k, v) l -> stream_ctrl_id < k -> it_value y' = Some v).
Proof.
  induction l as [|[id v] l IH]; intros r C N; cbn [fold_left map fst snd] in *; [split; [exact C|]; intros k y H; exists y; repeat split; auto; intros v []|]. inversion N as [|? ? M N']; subst. destruct (IH (update_item r id v) (update_item_consistent r id v C) N') as [C' S]. split; [exact C'|].
  intros k y H. destruct (update_item_spec r id v C k y H) as (y1 & Y1 & Y2 & Y3 & Y4 & Y5). destruct (S k y1 Y1) as (y2 & Z1 & Z2 & Z3 & Z4 & Z5). exists y2. split; [exact Z1|]. split; [congruence|]. split; [congruence|]. cbn [In]. split.
  - intro K. rewrite Z4 by tauto. apply Y4. intros ->. tauto.
  - intros w [E|I] Hk; [|auto]. injection E as <- <-. rewrite Z4 by exact M. auto.
Qed.
Lemma update_spec r h : consistent r -> NoDup (map d_id (h_descr h)) -> NoDup (map d_name (h_descr h)) -> NoDup (map fst (h_items h)) -> exists r', update r h = Some r' /\ consistent r' /\
  forall k name desc, (In (k, name, desc) (h_descr h) \/ (~ In k (map d_id (h_descr h)) /\ ~ In name (map d_name (h_descr h)) /\ exists y, by_id r k = Some y /\ it_name y = name /\ it_desc y = desc)) ->
  exists y', by_id r' k = Some y' /\ it_name y' = name /\ it_desc y' = desc /\
    (forall v, In (k, v) (h_items h) -> stream_ctrl_id < k -> it_value y' = Some v) /\
    (~ In k (map fst (h_items h)) -> forall y, by_id r k = Some y -> it_name y = name -> it_desc y = desc -> y' = y).
Proof.
  intros C N1 N2 N3. unfold update. destruct (add_descrs_spec (h_descr h) r C N1 N2) as (r1 & -> & C1 & A & O). destruct (items_spec (h_items h) r1 C1 N3) as [C2 S]. eexists. split; [reflexivity|]. split; [exact C2|]. intros k name desc K.
  assert (exists y1, by_id r1 k = Some y1 /\ it_name y1 = name /\ it_desc y1 = desc /\ (forall y, by_id r k = Some y -> it_name y = name -> it_desc y = desc -> y1 = y)) as (y1 & Y1 & Y2 & Y3 & Y4).
  { destruct K as [K|(K1 & K2 & y & K3 & K4 & K5)]; [now apply A|]. exists y. split; [apply O; auto; now rewrite K4|]. split; [exact K4|]. split; [exact K5|]. intros. congruence. }
  destruct (S k y1 Y1) as (y2 & Z1 & Z2 & Z3 & Z4 & Z5). exists y2. split; [exact Z1|]. split; [congruence|]. split; [congruence|]. split; [exact Z5|]. intros K' y H1 H2 H3. rewrite (Z4 K'). auto.
Qed.

(** *** Making a heap *)
Definition id_of (g : group) (o : nat) : Z := match obj g o with Some x => it_id x | None => 0 end.
Lemma add_one_local g d m n n' o x : obj g o = Some x -> lookup (it_id x) (n_info n') = lookup (it_id x) (n_info n) -> n_cnt n' = n_cnt n -> n_freq n' = n_freq n ->
  snd (add_one g d m n' o) = snd (add_one g d m n o) /\ lookup (it_id x) (n_info (fst (add_one g d m n' o))) = lookup (it_id x) (n_info (fst (add_one g d m n o))).
Proof.
  intros E L C F. unfold add_one. rewrite E. unfold get_info. rewrite L, C. set (i := match lookup (it_id x) (n_info n) with Some i => i | None => _ end).
  assert (D : descriptor_stale n' o i = descriptor_stale n o i) by (unfold descriptor_stale; now rewrite C, F). rewrite D. destruct (match d with Stale => descriptor_stale n o i | All => (true, i) | Never => (false, i) end) as [st i']. cbn [fst snd n_info]. split; [reflexivity|]. now rewrite !lookup_assign, Z.eqb_refl.
Qed.
Lemma add_one_other g d m n o k : k <> id_of g o \/ obj g o = None -> lookup k (n_info (fst (add_one g d m n o))) = lookup k (n_info n).
Proof.
  unfold add_one, id_of. destruct (obj g o) as [x|]; [|reflexivity]. intros [N|]; [|discriminate]. destruct (match d with Stale => _ | All => _ | Never => _ end) as [st i']. cbn [fst n_info]. rewrite lookup_assign. destruct (Z.eqb_spec k (it_id x)); [contradiction|reflexivity].
Qed.
Lemma add_one_keep g d m n o : n_cnt (fst (add_one g d m n o)) = n_cnt n /\ n_freq (fst (add_one g d m n o)) = n_freq n.
Proof. unfold add_one. destruct (obj g o); [|auto]. destruct (match d with Stale => _ | All => _ | Never => _ end). auto. Qed.
Lemma add_all_spec g d m l : forall n, (forall o, In o l -> obj g o <> None) -> NoDup (map (id_of g) l) -> let '(n', h) := add_all g d m n l in
  h_descr h = flat_map (fun o => h_descr (snd (add_one g d m n o))) l /\ h_items h = flat_map (fun o => h_items (snd (add_one g d m n o))) l /\ n_cnt n' = n_cnt n /\ n_freq n' = n_freq n /\
  (forall o, In o l -> lookup (id_of g o) (n_info n') = lookup (id_of g o) (n_info (fst (add_one g d m n o)))) /\ (forall k, ~ In k (map (id_of g) l) -> lookup k (n_info n') = lookup k (n_info n)).
Proof.
  induction l as [|o l IH]; intros n V N; cbn [add_all map] in *; [repeat split; auto; intros o []|]. inversion N as [|? ? M N']; subst. pose proof (add_one_keep g d m n o) as [K1 K2]. destruct (add_one g d m n o) as [n1 h1] eqn:E1. specialize (IH n1 ltac:(intros; apply V; cbn; auto) N'). destruct (add_all g d m n1 l) as [n2 h2]. destruct IH as (H1 & H2 & H3 & H4 & H5 & H6). cbn [fst] in *.
  assert (Oth : forall k, k <> id_of g o -> lookup k (n_info n1) = lookup k (n_info n)) by (intros k Hk; pose proof (add_one_other g d m n o k (or_introl Hk)) as P; now rewrite E1 in P).
  assert (Eq : forall p, In p l -> snd (add_one g d m n1 p) = snd (add_one g d m n p) /\ lookup (id_of g p) (n_info (fst (add_one g d m n1 p))) = lookup (id_of g p) (n_info (fst (add_one g d m n p)))).
  { intros p Hp. destruct (obj g p) as [x|] eqn:Ep; [|exfalso; apply (V p); cbn; auto]. assert (Ei : id_of g p = it_id x) by (unfold id_of; now rewrite Ep). rewrite Ei. apply add_one_local; auto. apply Oth. rewrite <- Ei. intro E. apply M. rewrite <- E. now apply in_map. }
  cbn [h_descr h_items flat_map]. rewrite E1. cbn [fst snd]. split; [rewrite H1; f_equal; clear -Eq; induction l as [|p l IH]; [reflexivity|]; cbn [flat_map]; rewrite (proj1 (Eq p ltac:(cbn; auto))), IH; [reflexivity|intros; apply Eq; cbn; auto]|].
  split; [rewrite H2; f_equal; clear -Eq; induction l as [|p l IH]; [reflexivity|]; cbn [flat_map]; rewrite (proj1 (Eq p ltac:(cbn; auto))), IH; [reflexivity|intros; apply Eq; cbn; auto]|].
  split; [congruence|]. split; [congruence|]. split.
  - intros p [<-|Hp]; [rewrite E1; cbn [fst]; now apply H6|]. rewrite H5 by exact Hp. now apply Eq.
  - intros k Hk. cbn [In] in Hk. rewrite H6 by tauto. apply Oth. intro. subst. tauto.
Qed.

(** The objects in a consistent group *)
Lemma in_lookup {A} (d : list (Z * A)) k o : NoDup (map fst d) -> In (k, o) d -> lookup k d = Some o.
Proof.
  induction d as [|[k' o'] d IH]; cbn [map lookup fst In]; [intros _ []|]. intros N [E|I]; inversion N as [|? ? M N']; subst; [injection E as <- <-; now rewrite Z.eqb_refl|]. destruct (Z.eqb_spec k k') as [->|]; [|auto]. exfalso. apply M. apply (in_map fst) in I. exact I.
Qed.
Lemma lookup_In {A} (d : list (Z * A)) k o : lookup k d = Some o -> In (k, o) d.
Proof. induction d as [|[k' o'] d IH]; cbn [lookup In]; [discriminate|]. destruct (Z.eqb_spec k k') as [->|]; [intro H; injection H as <-; auto|auto]. Qed.
Lemma in_objs g o : consistent g -> In o (map snd (g_name g)) <-> exists x, obj g o = Some x /\ lookup (it_id x) (g_id g) = Some o.
Proof.
  intro C. split.
  - intro I. apply in_map_iff in I as ([k o'] & E & I). cbn in E. subst o'. apply in_lookup in I; [|apply C]. destruct (c_name _ C _ _ I) as (x & X1 & _ & X3). eauto.
  - intros (x & X1 & X2). destruct (c_id _ C _ _ X2) as (y & Y1 & _ & Y3). apply lookup_In in Y3. now apply (in_map snd) in Y3.
Qed.
Definition name_of (g : group) (o : nat) : Z := match obj g o with Some x => it_name x | None => 0 end.
Lemma objs_nodup g : consistent g -> NoDup (map (id_of g) (map snd (g_name g))) /\ NoDup (map (name_of g) (map snd (g_name g))).
Proof.
  intro C. assert (Nn : map (name_of g) (map snd (g_name g)) = map fst (g_name g)).
  { rewrite map_map. apply map_ext_in. intros [k o] I. cbn [fst snd]. apply in_lookup in I; [|apply C]. destruct (c_name _ C _ _ I) as (x & X1 & X2 & _). unfold name_of. now rewrite X1. }
  split; [|rewrite Nn; apply C]. assert (Nl : NoDup (map snd (g_name g))) by (pose proof (c_nname _ C) as N; rewrite <- Nn in N; now apply NoDup_map_inv in N).
  assert (P : forall o, In o (map snd (g_name g)) -> lookup (id_of g o) (g_id g) = Some o) by (intros o I; apply in_objs in I as (x & X1 & X2); [|exact C]; unfold id_of; now rewrite X1). clear Nn. induction (map snd (g_name g)) as [|o l IH]; cbn [map]; [constructor|]. inversion Nl as [|? ? M Nl']; subst. constructor; [|apply IH; auto; intros; apply P; cbn; auto].
  intro I. apply in_map_iff in I as (p & E & I). assert (p = o) by (pose proof (P o ltac:(cbn; auto)) as P1; pose proof (P p ltac:(cbn; auto)) as P2; rewrite E in P2; congruence). congruence.
Qed.
Lemma flat_nodup {B} (f : nat -> list B) (key : B -> Z) (k : nat -> Z) l : (forall o b, In o l -> In b (f o) -> key b = k o) -> (forall o, (length (f o) <= 1)%nat) -> NoDup (map k l) -> NoDup (map key (flat_map f l)).
Proof.
  induction l as [|o l IH]; intros E L N; cbn [flat_map map]; [constructor|]. inversion N as [|? ? M N']; subst. specialize (IH ltac:(intros; eapply E; cbn; eauto) L N'). specialize (L o). destruct (f o) as [|b [|]] eqn:F; cbn in L; [exact IH| |lia]. cbn [app map]. constructor; [|exact IH].
  intro I. apply M. rewrite <- (E o b ltac:(cbn; auto) ltac:(rewrite F; cbn; auto)). apply in_map_iff in I as (c & Ec & I). apply in_flat_map in I as (p & Ip & Ic). rewrite <- Ec, (E p c ltac:(cbn; auto) Ic). now apply in_map.
Qed.

(** What is decided for one item: whether the descriptor and the value are sent, and
    the new info *)
Definition plan (d m : mode) (n : gen) (o : nat) (x : item) : bool * bool * info :=
  let i := get_info n (it_id x) o in
  let '(stale, i) := match d with All => (true, i) | Stale => descriptor_stale n o i | Never => (false, i) end in
  let i := if stale then {| i_version := i_version i; i_cnt := Some (n_cnt n); i_item := i_item i |} else i in
  let send := match it_value x with None => false | Some _ => match m with All => true | Stale => negb (is_version i (it_version x)) | Never => false end end in
  (stale, send, if send then {| i_version := Some (it_version x); i_cnt := i_cnt i; i_item := i_item i |} else i).
Lemma add_one_plan g d m n o x : obj g o = Some x -> let '(stale, send, i) := plan d m n o x in
  h_descr (snd (add_one g d m n o)) = (if stale then [(it_id x, it_name x, it_desc x)] else []) /\ h_items (snd (add_one g d m n o)) = match it_value x with Some v => if send then [(it_id x, v)] else [] | None => [] end /\ lookup (it_id x) (n_info (fst (add_one g d m n o))) = Some i.
Proof.
  intro E. unfold plan, add_one. rewrite E. destruct (match d with Stale => _ | All => _ | Never => _ end) as [st i']. cbn [fst snd h_descr h_items n_info]. split; [reflexivity|]. split; [reflexivity|]. now rewrite lookup_assign, Z.eqb_refl.
Qed.
Lemma get_heap_spec g d m n n' h : consistent g -> get_heap g d m n = (n', h) ->
  NoDup (map d_id (h_descr h)) /\ NoDup (map d_name (h_descr h)) /\ NoDup (map fst (h_items h)) /\ n_freq n' = n_freq n /\
  (forall k, lookup k (g_id g) = None -> lookup k (n_info n') = lookup k (n_info n)) /\
  (forall k o x, lookup k (g_id g) = Some o -> obj g o = Some x -> let '(stale, send, i) := plan d m n o x in
     lookup k (n_info n') = Some i /\
     (if stale then In (k, it_name x, it_desc x) (h_descr h) else ~ In k (map d_id (h_descr h)) /\ ~ In (it_name x) (map d_name (h_descr h))) /\
     (if send then exists v, it_value x = Some v /\ In (k, v) (h_items h) else ~ In k (map fst (h_items h)))).
Proof.
  intros C H. unfold get_heap in H. set (l := map snd (g_name g)) in *. destruct (objs_nodup g C) as [N1 N2]. fold l in N1, N2. assert (V : forall o, In o l -> obj g o <> None) by (intros o I; apply in_objs in I as (x & X & _); [congruence|exact C]).
  pose proof (add_all_spec g d m l n V N1) as S. destruct (add_all g d m n l) as [n1 h1]. injection H as <- <-. destruct S as (S1 & S2 & S3 & S4 & S5 & S6). cbn [n_info n_freq].
  assert (P : forall o, In o l -> exists x, obj g o = Some x /\ id_of g o = it_id x /\ name_of g o = it_name x /\ lookup (it_id x) (g_id g) = Some o) by (intros o I; apply in_objs in I as (x & X & X2); [|exact C]; exists x; unfold id_of, name_of; rewrite X; auto).
  assert (Kd : forall o b, In o l -> In b (h_descr (snd (add_one g d m n o))) -> d_id b = id_of g o /\ d_name b = name_of g o).
  { intros o b I Hb. destruct (P o I) as (x & X1 & -> & -> & _). pose proof (add_one_plan g d m n o x X1) as A. destruct (plan d m n o x) as [[st se] i]. destruct A as (A & _ & _). rewrite A in Hb. destruct st; [|destruct Hb]. destruct Hb as [<-|[]]. auto. }
  assert (Ki : forall o b, In o l -> In b (h_items (snd (add_one g d m n o))) -> fst b = id_of g o).
  { intros o b I Hb. destruct (P o I) as (x & X1 & -> & _ & _). pose proof (add_one_plan g d m n o x X1) as A. destruct (plan d m n o x) as [[st se] i]. destruct A as (_ & A & _). rewrite A in Hb. destruct (it_value x); [|destruct Hb]. destruct se; [|destruct Hb]. destruct Hb as [<-|[]]. auto. }
  assert (Ld : forall o, (length (h_descr (snd (add_one g d m n o))) <= 1)%nat). { intro o. destruct (obj g o) as [x|] eqn:E; [|unfold add_one; rewrite E; cbn; lia]. pose proof (add_one_plan g d m n o x E) as A. destruct (plan d m n o x) as [[st se] i]. destruct A as (-> & _ & _). destruct st; cbn; lia. }
  assert (Li : forall o, (length (h_items (snd (add_one g d m n o))) <= 1)%nat). { intro o. destruct (obj g o) as [x|] eqn:E; [|unfold add_one; rewrite E; cbn; lia]. pose proof (add_one_plan g d m n o x E) as A. destruct (plan d m n o x) as [[st se] i]. destruct A as (_ & -> & _). destruct (it_value x), se; cbn; lia. }
  rewrite S1, S2. split; [apply (flat_nodup _ d_id (id_of g)); auto; intros; eapply Kd; eauto|]. split; [apply (flat_nodup _ d_name (name_of g)); auto; intros; eapply Kd; eauto|]. split; [apply (flat_nodup _ fst (id_of g)); auto|]. split; [exact S4|]. split.
  - intros k Lk. apply S6. intro I. apply in_map_iff in I as (o & E & I). destruct (P o I) as (x & _ & E2 & _ & L). congruence.
  - intros k o x Lk Ex. destruct (c_id _ C _ _ Lk) as (x' & E' & <- & _). rewrite Ex in E'. injection E' as <-. assert (I : In o l) by (apply in_objs; [exact C|eauto]). pose proof (add_one_plan g d m n o x Ex) as A. destruct (plan d m n o x) as [[st se] i] eqn:Pl. destruct A as (A1 & A2 & A3). assert (Ei : id_of g o = it_id x) by (unfold id_of; now rewrite Ex). assert (En : name_of g o = it_name x) by (unfold name_of; now rewrite Ex).
    split; [rewrite <- Ei, S5 by exact I; now rewrite Ei|]. split.
    + destruct st; [apply in_flat_map; exists o; rewrite A1; cbn; auto|]. split; intro J; apply in_map_iff in J as (b & Eb & J); apply in_flat_map in J as (p & Ip & Jp); destruct (Kd p b Ip Jp) as [K1 K2]; assert (p = o) by (destruct (P p Ip) as (z & Z1 & Z2 & Z3 & Z4); destruct (c_id _ C _ _ Z4) as (z' & Z1' & _ & Z5); rewrite Z1 in Z1'; injection Z1' as <-; destruct (c_id _ C _ _ Lk) as (x' & E' & _ & E5); rewrite Ex in E'; injection E' as <-; congruence); subst p; rewrite A1 in Jp; destruct Jp.
    + assert (Se : se = true -> it_value x <> None) by (unfold plan in Pl; destruct (match d with Stale => _ | All => _ | Never => _ end); injection Pl as _ <- _; destruct (it_value x); discriminate). destruct se.
      * destruct (it_value x) as [v|] eqn:Ev; [|exfalso; now apply Se]. exists v. split; [reflexivity|]. apply in_flat_map. exists o. rewrite A2. cbn. auto.
      * intro J. apply in_map_iff in J as (b & Eb & J). apply in_flat_map in J as (p & Ip & Jp). pose proof (Ki p b Ip Jp) as K1. assert (p = o) by (destruct (P p Ip) as (z & Z1 & Z2 & Z3 & Z4); congruence). subst p. rewrite A2 in Jp. destruct (it_value x); destruct Jp.
Qed.

(** *** The invariant *)
Definition known (g : group) (r : group) (k : Z) (i : info) : Prop :=
  (i_item i < length (g_objs g))%nat /\ i_cnt i <> None /\
  forall o x, lookup k (g_id g) = Some o -> obj g o = Some x -> i_item i = o -> exists y, by_id r k = Some y /\ it_name y = it_name x /\ it_desc y = it_desc x /\
    forall w, i_version i = Some w -> w <= it_version x /\ it_value x <> None /\ (w = it_version x -> stream_ctrl_id < k -> it_value y = it_value x).
Record inv (g : group) (n : gen) (r : group) : Prop := { v_g : consistent g; v_r : consistent r; v_k : forall k i, lookup k (n_info n) = Some i -> known g r k i }.

Lemma op_inv g n r p g' : inv g n r -> step g p = Some g' -> inv g' n r.
Proof.
  intros [Cg Cr K] S. destruct (step_consistent g p Cg) as (g1 & E1 & C'). assert (g1 = g') by congruence. subst g1. destruct (step_evolves g p g' Cg S) as [V1 V2]. constructor; auto. intros k i L. destruct (K k i L) as (K1 & K2 & K3). split; [|split; [exact K2|]].
  - destruct (nth_error (g_objs g) (i_item i)) as [z|] eqn:Z; [|apply nth_error_None in Z; lia]. destruct (V1 _ _ Z) as (z' & Z' & _). now apply (obj_lt g' _ z').
  - intros o x' Lk Ex Ei. assert (Lo : (o < length (g_objs g))%nat) by lia. pose proof (V2 k o Lk Lo) as Lk0. destruct (nth_error (g_objs g) o) as [x|] eqn:Ox; [|apply nth_error_None in Ox; lia]. destruct (V1 _ _ Ox) as (z' & Z1 & Z2 & Z3 & Z4 & Z5 & Z7). rewrite Ex in Z1. injection Z1 as <-. destruct (K3 o x Lk0 Ox Ei) as (y & Y1 & Y2 & Y3 & Y4). exists y. split; [exact Y1|]. split; [congruence|]. split; [congruence|].
    intros w Hw. destruct (Y4 w Hw) as (Y5 & Y5' & Y6). destruct Z5 as [Z5 Z6]. split; [lia|]. split; [auto|]. intros -> Hk. assert (x' = x). { destruct (Z.eq_dec (it_version x) (it_version x')) as [E|]; [|lia]. assert (D : {x' = x} + {x' <> x}) by (repeat decide equality). destruct D as [|D]; [assumption|]. specialize (Z6 D). lia. } subst x'. auto.
Qed.

(** Sending a heap *)
Lemma send_inv g n r0 r d m n' h : consistent g -> consistent r -> get_heap g d m n = (n', h) -> (d = All /\ m = All \/ d = Stale /\ m = Stale) ->
  (d = Stale -> r0 = r) -> (forall k i, lookup k (n_info n) = Some i -> known g r0 k i) ->
  exists r', update r h = Some r' /\ inv g n' r' /\ same_items g r' /\ (n_freq n = None \/ d = All -> same_values g r').
Proof.
  intros Cg Cr H M Er0 Ks. destruct (get_heap_spec g d m n n' h Cg H) as (N1 & N2 & N3 & _ & Oth & P). destruct (update_spec r h Cr N1 N2 N3) as (r' & Er & Cr' & U). exists r'. split; [exact Er|].
  assert (Bounds : forall k i, lookup k (n_info n) = Some i -> (i_item i < length (g_objs g))%nat /\ i_cnt i <> None) by (intros k i L; destruct (Ks k i L); tauto).
  (* one item *)
  assert (One : forall k o x, lookup k (g_id g) = Some o -> obj g o = Some x -> exists i y, lookup k (n_info n') = Some i /\ by_id r' k = Some y /\ it_name y = it_name x /\ it_desc y = it_desc x /\ known g r' k i /\
            (n_freq n = None \/ d = All -> forall v, stream_ctrl_id < k -> it_value x = Some v -> it_value y = Some v)).
  { intros k o x Lk Ex. specialize (P k o x Lk Ex). destruct (c_id _ Cg _ _ Lk) as (x' & Ex' & Ek & _). rewrite Ex in Ex'. injection Ex' as <-. destruct (plan d m n o x) as [[st se] i] eqn:Pl. destruct P as (P1 & P2 & P3).
    pose (i0 := get_info n (it_id x) o). assert (I0 : lookup k (n_info n) = Some i0 \/ i0 = {| i_version := None; i_cnt := None; i_item := o |}) by (unfold i0, get_info; rewrite Ek; destruct (lookup k (n_info n)); auto).
    assert (Low : (o < length (g_objs g))%nat) by (now apply (obj_lt g o x)).
    assert (Lo0 : (i_item i0 < length (g_objs g))%nat) by (destruct I0 as [I0| ->]; [now apply (Bounds k)|exact Low]).
    (* the descriptor arrives *)
    assert (Here : st = false -> d = Stale /\ i_item i0 = o /\ lookup k (n_info n) = Some i0).
    { intros ->. unfold plan in Pl. fold i0 in Pl. destruct M as [[-> ->]|[-> ->]]; [discriminate|]. split; [reflexivity|]. unfold descriptor_stale in Pl. destruct (i_cnt i0) eqn:Ec; [|discriminate]. destruct (match n_freq n with Some f => _ | None => _ end); [discriminate|]. destruct (Nat.eqb_spec (i_item i0) o); cbn [negb] in Pl; [|discriminate]. split; [assumption|]. destruct I0 as [I0|I0]; [exact I0|]. rewrite I0 in Ec. discriminate. }
    assert (Was : d = Stale -> i_item i0 = o -> lookup k (n_info n) = Some i0 -> exists y, by_id r k = Some y /\ it_name y = it_name x /\ it_desc y = it_desc x /\ forall w, i_version i0 = Some w -> w <= it_version x /\ it_value x <> None /\ (w = it_version x -> stream_ctrl_id < k -> it_value y = it_value x)) by (intros Ed Ei L; destruct (Ks k i0 L) as (_ & _ & K); rewrite (Er0 Ed) in K; now apply (K o x)).
    assert (Pre : In (k, it_name x, it_desc x) (h_descr h) \/ (~ In k (map d_id (h_descr h)) /\ ~ In (it_name x) (map d_name (h_descr h)) /\ exists y, by_id r k = Some y /\ it_name y = it_name x /\ it_desc y = it_desc x)).
    { destruct st; [left; exact P2|right]. destruct P2 as [P2 P2']. destruct (Here eq_refl) as (Ed & Ei & L). destruct (Was Ed Ei L) as (y & Y1 & Y2 & Y3 & _). eauto 7. }
    destruct (U k (it_name x) (it_desc x) Pre) as (y & Y1 & Y2 & Y3 & Y4 & Y5). exists i, y. split; [exact P1|]. split; [exact Y1|]. split; [exact Y2|]. split; [exact Y3|].
    (* the value *)
    assert (Val : se = true -> stream_ctrl_id < k -> it_value y = it_value x) by (intros -> Hk; destruct P3 as (v & -> & P3); now apply Y4).
    assert (Keep : se = false -> d = Stale -> i_item i0 = o -> lookup k (n_info n) = Some i0 -> forall w, i_version i0 = Some w -> w <= it_version x /\ it_value x <> None /\ (w = it_version x -> stream_ctrl_id < k -> it_value y = it_value x)).
    { intros -> Ed Ei L w Hw. destruct (Was Ed Ei L) as (y0 & W1 & W2 & W3 & W4). rewrite (Y5 P3 y0 W1 W2 W3). auto. }
    (* the new info *)
    assert (Form : i_cnt i <> None /\ (i_item i = i_item i0 \/ i_item i = o) /\ (se = true -> i_version i = Some (it_version x)) /\ (se = false -> i_version i = i_version i0 \/ i_version i = None) /\ (i_item i = o -> i_item i0 <> o -> se = false -> i_version i = None) /\ (se = false -> d = Stale)
       \/ d = All /\ se = false /\ it_value x = None /\ i_cnt i <> None /\ i_item i = i_item i0 /\ i_version i = i_version i0).
    { unfold plan in Pl. fold i0 in Pl. destruct M as [[-> ->]|[-> ->]].
      - injection Pl as <- <- <-. destruct (it_value x) as [v|]; [left|right]; cbn [i_cnt i_item i_version]; repeat split; auto; try discriminate.
      - left. unfold descriptor_stale in Pl. destruct (i_cnt i0) as [c|] eqn:Ec.
        + destruct (match n_freq n with Some f => _ | None => _ end).
          * destruct (match it_value x with Some _ => _ | None => _ end) eqn:Es; injection Pl as <- <- <-; cbn [i_cnt i_item i_version]; repeat split; auto; try discriminate; try congruence.
          * destruct (Nat.eqb_spec (i_item i0) o); cbn [negb] in Pl; destruct (match it_value x with Some _ => _ | None => _ end) eqn:Es; injection Pl as <- <- <-; cbn [i_cnt i_item i_version]; repeat split; auto; try discriminate; try congruence.
        + destruct (match it_value x with Some _ => _ | None => _ end) eqn:Es; injection Pl as <- <- <-; cbn [i_cnt i_item i_version]; repeat split; auto; try discriminate; try congruence. }
    split.
    - assert (Lo : (i_item i < length (g_objs g))%nat) by (destruct Form as [(_ & [E|E] & _)|(_ & _ & _ & _ & E & _)]; rewrite E; auto). split; [exact Lo|]. split; [destruct Form as [(F & _)|(_ & _ & _ & F & _)]; exact F|].
      intros o2 x2 L2 E2 Ei. assert (o2 = o) by congruence. subst o2. assert (x2 = x) by congruence. subst x2. exists y. split; [exact Y1|]. split; [exact Y2|]. split; [exact Y3|]. intros w Hw.
      destruct Form as [(_ & F1 & F2 & F3 & F4 & F5)|(Ed & -> & Ev & _ & Ei0 & Ew)].
      + destruct se; [rewrite F2 in Hw by reflexivity; injection Hw as <-; split; [lia|]; split; [destruct P3 as (v & -> & _); discriminate|]; intros _ Hk; now apply Val|]. destruct (F3 eq_refl) as [E|E]; [|congruence]. assert (Ei0 : i_item i0 = o) by (destruct (Nat.eq_dec (i_item i0) o); [assumption|rewrite F4 in Hw by auto; discriminate]). destruct I0 as [I0|I0]; [|rewrite E, I0 in Hw; discriminate]. rewrite E in Hw. now apply (Keep eq_refl (F5 eq_refl) Ei0 I0).
      + exfalso. destruct I0 as [I0|I0]; [|rewrite Ew, I0 in Hw; discriminate]. destruct (Ks k i0 I0) as (_ & _ & K). destruct (K o x Lk Ex ltac:(congruence)) as (y0 & _ & _ & _ & K4). rewrite Ew in Hw. destruct (K4 w Hw) as (_ & K5 & _). contradiction.
    - intros Hf v Hk Hv. destruct se eqn:Ese; [now rewrite Val|]. destruct M as [[-> ->]|[-> ->]]; [exfalso; unfold plan in Pl; rewrite Hv in Pl; discriminate|]. destruct Hf as [Hf|Hf]; [|discriminate].
      assert (Q : i_item i0 = o /\ i_version i0 = Some (it_version x)).
      { unfold plan in Pl. fold i0 in Pl. rewrite Hv in Pl. unfold descriptor_stale in Pl. rewrite Hf in Pl. unfold is_version in Pl. destruct (i_cnt i0) as [c|] eqn:Ec.
        - destruct (Nat.eqb_spec (i_item i0) o) as [E|]; cbn [negb] in Pl; [|discriminate]. split; [exact E|]. destruct (i_version i0) as [w|]; [|discriminate]. destruct (Z.eqb_spec w (it_version x)); [congruence|discriminate].
        - destruct I0 as [I0|I0]; [exfalso; now apply (Bounds k i0 I0)|]. rewrite I0 in Pl. discriminate. }
      destruct Q as [Q1 Q2]. destruct I0 as [I0|I0]; [|rewrite I0 in Q2; discriminate]. destruct (Keep eq_refl eq_refl Q1 I0 _ Q2) as (_ & _ & Kv). now rewrite Kv. }
  assert (By : forall k x, by_id g k = Some x -> exists o, lookup k (g_id g) = Some o /\ obj g o = Some x) by (intros k x B; unfold by_id in B; destruct (lookup k (g_id g)) as [o|]; [eauto|discriminate]).
  split; [|split].
  - constructor; auto. intros k i L. destruct (lookup k (g_id g)) as [o|] eqn:Lk.
    + destruct (c_id _ Cg _ _ Lk) as (x & Ex & _). destruct (One k o x Lk Ex) as (i' & y & L' & _ & _ & _ & K & _). congruence.
    + rewrite Oth in L by exact Lk. destruct (Bounds k i L). split; [assumption|]. split; [assumption|]. intros. congruence.
  - intros k x B. destruct (By k x B) as (o & Lk & Ex). destruct (One k o x Lk Ex) as (i & y & _ & Y1 & Y2 & Y3 & _). eauto.
  - intros Hf k x y v Hk B Br Hv. destruct (By k x B) as (o & Lk & Ex). destruct (One k o x Lk Ex) as (i & y' & _ & Y1 & _ & _ & _ & Y). rewrite Br in Y1. injection Y1 as <-. now apply Y.
Qed.

Lemma sys_inv f g n r : sys f g n r -> inv g n r /\ n_freq n = f.
Proof.
  induction 1 as [g r Rg Rr|g n r p g' _ [IH F] S|g n r n' h r' _ [IH F] H U|g n r0 r n' h r' _ [IH F] Rr H U].
  - split; [|reflexivity]. constructor; [now apply C44_consistent|now apply C44_consistent|]. cbn. discriminate.
  - split; [now apply (op_inv g n r p)|exact F].
  - pose proof (get_heap_spec g Stale Stale n n' h (v_g _ _ _ IH) H) as (_ & _ & _ & E & _). destruct (send_inv g n r r Stale Stale n' h (v_g _ _ _ IH) (v_r _ _ _ IH) H ltac:(auto) ltac:(auto) (v_k _ _ _ IH)) as (r1 & U1 & I & _). split; [congruence|congruence].
  - pose proof (get_heap_spec g All All n n' h (v_g _ _ _ IH) H) as (_ & _ & _ & E & _). destruct (send_inv g n r0 r All All n' h (v_g _ _ _ IH) (C44_consistent r Rr) H ltac:(auto) ltac:(discriminate) (v_k _ _ _ IH)) as (r1 & U1 & I & _). split; [congruence|congruence].
Qed.
(** Whatever was done to the sender's group and whatever was sent before: after the
    next heap the receiver has all the items of the sender, *)
Theorem C56_items freq g n r n' h : sys freq g n r -> get_heap g Stale Stale n = (n', h) -> exists r', update r h = Some r' /\ same_items g r'.
Proof.
  intros S H. destruct (sys_inv _ _ _ _ S) as [I F]. destruct (send_inv g n r r Stale Stale n' h (v_g _ _ _ I) (v_r _ _ _ I) H ltac:(auto) ltac:(auto) (v_k _ _ _ I)) as (r1 & U1 & _ & A & _). eauto.
Qed.
(** and if descriptors are not repeated also the values. *)
Theorem C56_values_partial g n r n' h : sys None g n r -> get_heap g Stale Stale n = (n', h) -> exists r', update r h = Some r' /\ same_items g r' /\ same_values g r'.
Proof.
  intros S H. destruct (sys_inv _ _ _ _ S) as [I F]. destruct (send_inv g n r r Stale Stale n' h (v_g _ _ _ I) (v_r _ _ _ I) H ltac:(auto) ltac:(auto) (v_k _ _ _ I)) as (r1 & U1 & _ & A & V). exists r1. auto.
Qed.
(** A heap with everything brings any receiver up to date. *)
Theorem C56_all freq g n r0 r n' h : sys freq g n r0 -> reach r -> get_heap g All All n = (n', h) -> exists r', update r h = Some r' /\ same_items g r' /\ same_values g r'.
Proof.
  intros S Rr H. destruct (sys_inv _ _ _ _ S) as [I F]. destruct (send_inv g n r0 r All All n' h (v_g _ _ _ I) (C44_consistent r Rr) H ltac:(auto) ltac:(discriminate) (v_k _ _ _ I)) as (r1 & U1 & _ & A & V). exists r1. auto.
Qed.

Lemma get_heap_from g d m n n' h : consistent g -> get_heap g d m n = (n', h) ->
  (forall b, In b (h_descr h) -> exists k o x, lookup k (g_id g) = Some o /\ obj g o = Some x /\ fst (fst (plan d m n o x)) = true) /\
  (forall b, In b (h_items h) -> exists k o x, lookup k (g_id g) = Some o /\ obj g o = Some x /\ snd (fst (plan d m n o x)) = true).
Proof.
  intros C H. unfold get_heap in H. set (l := map snd (g_name g)) in *. destruct (objs_nodup g C) as [N1 N2]. fold l in N1, N2. assert (V : forall o, In o l -> obj g o <> None) by (intros o I; apply in_objs in I as (x & X & _); [congruence|exact C]).
  pose proof (add_all_spec g d m l n V N1) as S. destruct (add_all g d m n l) as [n1 h1]. injection H as <- <-. destruct S as (S1 & S2 & _). rewrite S1, S2. split; intros b I; apply in_flat_map in I as (o & I & J); apply in_objs in I as (x & X1 & X2); try exact C; exists (it_id x), o, x; (split; [exact X2|]; split; [exact X1|]); pose proof (add_one_plan g d m n o x X1) as A; destruct (plan d m n o x) as [[st se] i]; destruct A as (A1 & A2 & _); cbn [fst snd].
  - rewrite A1 in J. destruct st; [reflexivity|destruct J].
  - rewrite A2 in J. destruct (it_value x); [|destruct J]. destruct se; [reflexivity|destruct J].
Qed.
(** If nothing has changed since the last heap, the next one is empty. *)
Theorem C56_delta g n r n' h n2 h2 : sys None g n r -> get_heap g Stale Stale n = (n', h) -> get_heap g Stale Stale n' = (n2, h2) -> h2 = {| h_descr := []; h_items := [] |}.
Proof.
  intros S H H2. destruct (sys_inv _ _ _ _ S) as [I F]. pose proof (v_g _ _ _ I) as C. destruct (get_heap_spec g Stale Stale n n' h C H) as (_ & _ & _ & F' & _ & P). destruct (get_heap_from g Stale Stale n' n2 h2 C H2) as [D1 D2].
  assert (Q : forall k o x, lookup k (g_id g) = Some o -> obj g o = Some x -> fst (plan Stale Stale n' o x) = (false, false)).
  { intros k o x Lk Ex. specialize (P k o x Lk Ex). destruct (plan Stale Stale n o x) as [[st se] i] eqn:Pl. destruct P as (L & _). destruct (c_id _ C _ _ Lk) as (x' & Ex' & Ek & _). rewrite Ex in Ex'. injection Ex' as <-. subst k.
    assert (T : i_cnt i <> None /\ i_item i = o /\ (it_value x = None \/ i_version i = Some (it_version x))).
    { unfold plan in Pl. set (i0 := get_info n (it_id x) o) in *. assert (I0 : i_cnt i0 <> None \/ i_item i0 = o /\ i_version i0 = None). { unfold i0, get_info. destruct (lookup (it_id x) (n_info n)) as [j|] eqn:J; [left; now apply (v_k _ _ _ I (it_id x) j)|right; auto]. }
      unfold descriptor_stale in Pl. rewrite F in Pl. destruct (i_cnt i0) as [c|] eqn:Ec.
      - destruct (Nat.eqb_spec (i_item i0) o) as [E|]; cbn [negb] in Pl; unfold is_version in Pl; cbn [i_version i_cnt i_item] in Pl.
        + destruct (it_value x) as [v|]; [|injection Pl as <- <- <-; rewrite Ec; repeat split; auto; discriminate]. destruct (i_version i0) as [w|] eqn:Ew; [|injection Pl as <- <- <-; cbn; rewrite ?Ec; repeat split; auto; discriminate]. destruct (Z.eqb_spec w (it_version x)); cbn [negb] in Pl; injection Pl as <- <- <-; cbn; rewrite ?Ec, ?Ew; repeat split; auto; try discriminate. right; congruence.
        + destruct (it_value x) as [v|]; cbn [negb] in Pl; injection Pl as <- <- <-; cbn; repeat split; auto; discriminate.
      - destruct I0 as [I0|[I0 I1]]; [contradiction|]. unfold is_version in Pl. cbn [i_version i_cnt i_item] in Pl. rewrite I1 in Pl. destruct (it_value x) as [v|]; cbn [negb] in Pl; injection Pl as <- <- <-; cbn; repeat split; auto; discriminate. }
    destruct T as (T1 & T2 & T3). unfold plan, get_info. rewrite L. unfold descriptor_stale. destruct (i_cnt i) as [c|] eqn:Ec; [|contradiction]. rewrite F', F, T2, Nat.eqb_refl. cbn [negb]. unfold is_version. destruct T3 as [-> | ->]; [reflexivity|]. rewrite Z.eqb_refl. cbn [negb]. destruct (it_value x); reflexivity. }
  destruct h2 as [ds is]. cbn [h_descr h_items] in *. f_equal.
  - destruct ds as [|b ds]; [reflexivity|]. destruct (D1 b (or_introl eq_refl)) as (k & o & x & A1 & A2 & A3). rewrite (Q k o x A1 A2) in A3. discriminate.
  - destruct is as [|b is]; [reflexivity|]. destruct (D2 b (or_introl eq_refl)) as (k & o & x & A1 & A2 & A3). rewrite (Q k o x A1 A2) in A3. discriminate.
Qed.

(** *** Example: a change of type and a change of value *)
Definition run_ops (l : list op) (g : group) : option group := fold_left (fun g p => match g with Some g => step g p | None => None end) l (Some g).
Definition send (d : mode) (s : group * gen * group) : option (group * gen * group) :=
  let '(g, n, r) := s in let '(n', h) := get_heap g d d n in match update r h with Some r' => Some (g, n', r') | None => None end.
Definition ops (l : list op) (s : option (group * gen * group)) : option (group * gen * group) :=
  match s with Some (g, n, r) => match run_ops l g with Some g => Some (g, n, r) | None => None end | None => None end.
Definition send' (s : option (group * gen * group)) : option (group * gen * group) := match s with Some s => send Stale s | None => None end.
Definition ex_sync (freq : option Z) : option (group * gen * group) :=
  send' (ops [OAdd (Some 5000) 1 8 None; OSet 1 11; OSet 2 30] (send' (ops [OAdd (Some 5000) 1 7 (Some 10); OAdd (Some 5001) 2 7 (Some 20)] (Some (g_empty, n_init freq, g_empty))))).
Example C56_ex : option_map (fun s => let '(g, n, r) := s in map (fun k => option_map (fun x => (it_name x, it_desc x, it_value x)) (by_id r k)) [5000; 5001]) (ex_sync None) = Some [Some (1, 8, Some 30); Some (2, 7, Some 11)].
Proof. vm_compute. reflexivity. Qed.

Lemma run_ops_sys f l : forall g n r g', sys f g n r -> run_ops l g = Some g' -> sys f g' n r.
Proof.
  induction l as [|p l IH]; intros g n r g' S H; cbn in H; [injection H as <-; exact S|]. destruct (step g p) as [g1|] eqn:E; [|exfalso; clear -H; induction l; cbn in H; [discriminate|auto]]. apply (IH g1); [|exact H]. now apply (s_op f g n r p).
Qed.
(** With repeated descriptors a value may never be sent: when an id is used again,
    and its descriptor is repeated anyway because it is due, then the version of the
    item that had the id before is taken for that of the new one. *)
Theorem C56_values_refuted : exists g n r n' h r', sys (Some 1) g n r /\ get_heap g Stale Stale n = (n', h) /\ update r h = Some r' /\
  exists x y, by_id g 5000 = Some x /\ it_value x = Some 30 /\ by_id r' 5000 = Some y /\ it_name y = it_name x /\ it_desc y = it_desc x /\ it_value y = None.
Proof.
  (* item 5000 is sent with version 1, replaced through its name, and replaced through its id *)
  destruct (run_ops [OAdd (Some 5000) 1 7 (Some 10)] g_empty) as [g1|] eqn:E1; [|vm_compute in E1; discriminate]. assert (S1 : sys (Some 1) g1 (n_init (Some 1)) g_empty) by (apply (run_ops_sys _ [OAdd (Some 5000) 1 7 (Some 10)] g_empty); [constructor; constructor|exact E1]).
  destruct (get_heap g1 Stale Stale (n_init (Some 1))) as [n1 h1] eqn:E2. destruct (update g_empty h1) as [r1|] eqn:E3; [|vm_compute in E1; injection E1 as <-; vm_compute in E2; injection E2 as <- <-; vm_compute in E3; discriminate]. assert (S2 := s_send _ _ _ _ _ _ _ S1 E2 E3).
  destruct (run_ops [OAdd (Some 5001) 1 7 (Some 20); OAdd (Some 5000) 2 8 (Some 30)] g1) as [g2|] eqn:E4; [|vm_compute in E1; injection E1 as <-; vm_compute in E4; discriminate]. assert (S3 := run_ops_sys _ _ _ _ _ _ S2 E4).
  destruct (get_heap g2 Stale Stale n1) as [n2 h2] eqn:E5. destruct (update r1 h2) as [r2|] eqn:E6.
  - exists g2, n1, r1, n2, h2, r2. split; [exact S3|]. split; [exact E5|]. split; [exact E6|]. clear S1 S2 S3. vm_compute in E1; injection E1 as <-. vm_compute in E2; injection E2 as <- <-. vm_compute in E3; injection E3 as <-. vm_compute in E4; injection E4 as <-. vm_compute in E5; injection E5 as <- <-. vm_compute in E6; injection E6 as <-.
    eexists _, _. split; [reflexivity|]. split; [reflexivity|]. split; [reflexivity|]. split; [reflexivity|]. split; reflexivity.
  - clear S1 S2 S3. vm_compute in E1; injection E1 as <-. vm_compute in E2; injection E2 as <- <-. vm_compute in E3; injection E3 as <-. vm_compute in E4; injection E4 as <-. vm_compute in E5; injection E5 as <- <-. vm_compute in E6. discriminate.
Qed.

Print Assumptions C56_items.
Print Assumptions C56_values_partial.
Print Assumptions C56_all.
Print Assumptions C56_delta.
Print Assumptions C56_values_refuted.
