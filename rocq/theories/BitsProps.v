(** C43: bit-packed item values. *)
From Coq Require Import ZArith List Bool Lia.
From Verif Require Import Base BitsModel BitsSpec BitsProofs.
Import ListNotations.
Open Scope Z_scope.

Lemma half len : 0 < len -> 2 ^ len = 2 * 2 ^ (len - 1) /\ 0 < 2 ^ (len - 1).
Proof. intro H. split; [|apply Z.pow_pos_nonneg; lia]. replace len with (1 + (len - 1)) at 1 by lia. rewrite Z.pow_add_r by lia. reflexivity. Qed.
Lemma store_field_ok f v : code_ok f -> field_ok f v -> store_field f v = Ret (wire f v) /\ 0 <= wire f v < 2 ^ snd f.
Proof.
  destruct f as [c len]. intros [L C] F. cbn [fst snd] in *. destruct (half len L) as [E P]. unfold field_ok in F. cbn [fst snd] in F. destruct c, v; cbn [store_field wire snd]; try contradiction.
  - rewrite shl1' by lia. destruct (Z.ltb_spec z 0); [lia|]. destruct (Z.leb_spec (2 ^ len) z); [lia|]. cbn [orb]. rewrite Z.mod_small by lia. split; [reflexivity|lia].
  - rewrite shl1' by lia. destruct (Z.ltb_spec z (- 2 ^ (len - 1))); [lia|]. destruct (Z.leb_spec (2 ^ (len - 1)) z); [lia|]. cbn [orb]. split; [f_equal|apply Z.mod_pos_bound; lia]. destruct (Z.ltb_spec z 0).
    + apply (Z.mod_unique _ _ (-1)); lia.
    + symmetry. apply Z.mod_small. lia.
  - split; [reflexivity|]. destruct b; lia.
  - subst len. split; [reflexivity|]. change (2 ^ 8) with 256. lia.
  - replace ((len =? 32) || (len =? 64)) with true by (symmetry; apply orb_true_iff; rewrite !Z.eqb_eq; lia). split; [reflexivity|lia].
Qed.
Lemma load_field_ok f v : code_ok f -> field_ok f v -> load_field f (wire f v) = Ret v.
Proof.
  destruct f as [c len]. intros [L C] F. cbn [fst snd] in *. destruct (half len L) as [E P]. unfold field_ok in F. cbn [fst snd] in F. destruct c, v; cbn [load_field wire snd]; try contradiction.
  - rewrite Z.mod_small by lia. reflexivity.
  - rewrite !shl1' by lia. do 2 f_equal. destruct (Z_lt_le_dec z 0).
    + rewrite <- (Z.mod_unique z (2 ^ len) (-1) (z + 2 ^ len)) by lia. destruct (Z.leb_spec (2 ^ (len - 1)) (z + 2 ^ len)); lia.
    + rewrite Z.mod_small by lia. destruct (Z.leb_spec (2 ^ (len - 1)) z); lia.
  - now destruct b.
  - replace ((0 <=? b) && (b <? 256)) with true; [reflexivity|]. symmetry. apply andb_true_iff. rewrite Z.leb_le, Z.ltb_lt. lia.
  - replace ((len =? 32) || (len =? 64)) with true by (symmetry; apply orb_true_iff; rewrite !Z.eqb_eq; lia). reflexivity.
Qed.
Lemma store_field_bad f v : code_ok f -> field_bad f v -> store_field f v = Raise ValueError.
Proof.
  destruct f as [c len]. intros [L C] F. cbn [fst snd] in *. unfold field_bad in F. cbn [fst snd] in F. destruct c, v; cbn [store_field]; try contradiction; rewrite shl1' by lia.
  - destruct (Z.ltb_spec z 0); [reflexivity|]. destruct (Z.leb_spec (2 ^ len) z); [reflexivity|lia].
  - destruct (Z.ltb_spec z (- 2 ^ (len - 1))); [reflexivity|]. destruct (Z.leb_spec (2 ^ (len - 1)) z); [reflexivity|lia].
Qed.

Lemma store_fields_app a b g : store_fields (a ++ b) g = bind (store_fields a g) (store_fields b).
Proof. revert g. induction a as [|[f v] a IH]; intro g; cbn [app store_fields bind]; [reflexivity|]. destruct (store_field f v) as [raw|]; cbn [bind]; [|reflexivity]. destruct (w_send g raw (snd f)); cbn [bind]; auto. Qed.
Lemma store_flat fmt shape : forall v g, shaped shape v -> store fmt (length shape) v g = store_fields (fields fmt v) g.
Proof.
  induction shape as [|n r IH]; intros v g S; destruct v as [fs|l]; cbn [shaped length store fields] in *; try contradiction; [reflexivity|]. destruct S as [_ F]. revert g. induction F as [|v l Hv _ IHl]; intro g; cbn [for_each flat_map]; [reflexivity|].
  rewrite store_fields_app, IH by assumption. destruct (store_fields (fields fmt v) g); cbn [bind]; auto.
Qed.
Definition sent (l : list ((code * Z) * field)) : list (Z * Z) := map (fun x => (wire (fst x) (snd x), snd (fst x))) l.
Lemma sent_ok l : Forall (fun x => code_ok (fst x)) l -> Forall (fun x => field_ok (fst x) (snd x)) l -> (forall g, store_fields l g = w_sends (sent l) g) /\ bits_okl (sent l).
Proof.
  intro C. induction C as [|[f v] l Cf _ IH]; intro F; cbn; [split; [reflexivity|constructor]|]. inversion_clear F as [|? ? F1 F2]. cbn [fst snd] in *. destruct (IH F2) as [IH1 IH2]. destruct (store_field_ok f v Cf F1) as [E B]. split.
  - intro g. rewrite E. cbn [bind]. destruct (w_send g (wire f v) (snd f)); cbn [bind]; auto.
  - constructor; [|exact IH2]. cbn [fst snd]. destruct Cf. lia.
Qed.
Lemma wd_sent l : wd (sent l) = width l. Proof. unfold wd, width, sent. induction l; cbn [map fold_right fst snd]; congruence. Qed.
Lemma width_app a b : width (a ++ b) = width a + width b. Proof. unfold width. induction a; cbn [app fold_right]; lia. Qed.
Lemma width_combine fmt : forall fs, length fs = length fmt -> width (combine fmt fs) = bits_of fmt.
Proof. unfold width, bits_of. induction fmt as [|f fmt IH]; intros [|x fs] L; cbn [combine fold_right fst] in *; try discriminate; [reflexivity|]. rewrite IH; [reflexivity|]. now injection L. Qed.
Lemma width_fields fmt shape : forall v, shaped shape v -> elements_ok fmt v -> width (fields fmt v) = bits_of fmt * product shape.
Proof.
  induction shape as [|n r IH]; intros [fs|l] S E; cbn [shaped elements_ok fields] in *; try contradiction.
  - rewrite width_combine by assumption. cbn. lia.
  - destruct S as [<- F]. unfold zlen. change (product (Z.of_nat (length l) :: r)) with (Z.of_nat (length l) * product r). induction F as [|v l Hv _ IHl]; cbn [flat_map length fold_right] in *; [cbn; lia|]. destruct E as [E1 E2]. rewrite width_app, IHl, (IH v) by assumption. lia.
Qed.

Lemma code_combine fmt : Forall code_ok fmt -> forall fs : list field, Forall (fun x => code_ok (fst x)) (combine fmt fs).
Proof. induction 1 as [|f fmt Cf _ IH]; intros [|x fs]; cbn [combine]; constructor; auto. Qed.
Lemma code_fields fmt : Forall code_ok fmt -> forall v, elements_ok fmt v -> Forall (fun x => code_ok (fst x)) (fields fmt v).
Proof.
  intro C. fix IH 1. intros [fs|l]; cbn [elements_ok fields].
  - intros _. now apply code_combine.
  - intro E. induction l as [|v l IHl]; cbn [flat_map fold_right] in *; [constructor|]. destruct E as [E1 E2]. apply Forall_app. split; [now apply IH|now apply IHl].
Qed.

(** Where the fields are: one after the other, the most significant bit first,
    integers in two's complement; the last byte is filled up with zeros. *)
Theorem C43_layout fmt shape v : Forall code_ok fmt -> shaped shape v -> elements_ok fmt v -> Forall (fun x => field_ok (fst x) (snd x)) (fields fmt v) ->
  exists out, pack fmt shape v = Ret out /\ bytes_ok out /\ zlen out = (width (fields fmt v) + 7) / 8 /\
    (forall l1 f x l2, fields fmt v = l1 ++ (f, x) :: l2 -> bits_at out (width l1) (snd f) = wire f x) /\
    be_decode out mod 2 ^ (8 * zlen out - width (fields fmt v)) = 0.
Proof.
  intros C S E F. destruct (sent_ok _ (code_fields fmt C v E) F) as [Es Bo]. unfold pack. rewrite <- (width_fields fmt shape v S E), (store_flat fmt shape v _ S), Es.
  destruct (write_ok (sent (fields fmt v)) ((width (fields fmt v) + 7) / 8) Bo) as (out & -> & Z & Ok & D); [now rewrite wd_sent|]. exists out. split; [reflexivity|]. split; [exact Ok|]. split; [exact Z|]. rewrite wd_sent in D. pose proof (wd_nonneg _ Bo) as W0. rewrite wd_sent in W0.
  assert (P : 0 <= 8 * zlen out - width (fields fmt v)) by (rewrite Z; pose proof (Z.div_mod (width (fields fmt v) + 7) 8 ltac:(lia)); pose proof (Z.mod_pos_bound (width (fields fmt v) + 7) 8 ltac:(lia)); lia). split.
  - intros l1 f x l2 El. rewrite <- (wd_sent l1). apply (bits_of_number out (sent l1) (wire f x) (snd f) (sent l2) (8 * zlen out - width (fields fmt v))); try assumption.
    + rewrite El in Bo. unfold sent in *. rewrite map_app in Bo. exact Bo.
    + rewrite D, Z. f_equal. rewrite El. unfold sent. rewrite map_app. reflexivity.
    + replace (sent l1 ++ (wire f x, snd f) :: sent l2) with (sent (fields fmt v)) by (rewrite El; unfold sent; now rewrite map_app). rewrite wd_sent. lia.
  - rewrite D, <- Z. apply Z.mod_mul. apply Z.pow_nonzero; lia.
Qed.

(** *** Reading *)
Definition at_off (raw : list Z) (off : Z) (l : list ((code * Z) * field)) : Prop := forall l1 f x l2, l = l1 ++ (f, x) :: l2 -> bits_at raw (off + width l1) (snd f) = wire f x.
Lemma at_off_app raw off a b : at_off raw off (a ++ b) -> at_off raw off a /\ at_off raw (off + width a) b.
Proof.
  intro H. split; intros l1 f x l2 E.
  - apply (H l1 f x (l2 ++ b)). rewrite E, <- app_assoc. reflexivity.
  - rewrite <- Z.add_assoc, <- width_app. apply (H (a ++ l1) f x l2). now rewrite E, app_assoc.
Qed.
Lemma width_nonneg l : Forall (fun x => code_ok (fst x)) l -> 0 <= width l.
Proof. unfold width. induction 1 as [|x l [P _] _ IH]; cbn [fold_right]; lia. Qed.
Lemma load_fields_ok raw : bytes_ok raw -> forall fmt fs off g, Forall code_ok fmt -> length fs = length fmt -> Forall (fun x => field_ok (fst x) (snd x)) (combine fmt fs) -> rok raw off g -> 0 <= off -> at_off raw off (combine fmt fs) -> off + bits_of fmt <= 8 * zlen raw ->
  exists g', load_fields fmt g = Ret (fs, g') /\ rok raw (off + bits_of fmt) g'.
Proof.
  intro Ok. induction fmt as [|f fmt IH]; intros [|x fs] off g C L F R O A B; cbn [combine length load_fields] in *; try discriminate.
  - exists g. unfold bits_of. cbn. rewrite Z.add_0_r. auto.
  - injection L as L. inversion_clear C as [|? ? C1 C2]. inversion_clear F as [|? ? F1 F2]. cbn [fst snd] in F1. unfold bits_of in B. cbn [fold_right] in B. fold (bits_of fmt) in B. assert (0 <= bits_of fmt) by (clear - C2; unfold bits_of; induction C2 as [|? ? [? _] _ ?]; cbn [fold_right]; lia).
    destruct C1 as [P1 P2] eqn:EC. destruct (read_ok raw off (snd f) g Ok R O ltac:(lia) ltac:(lia)) as (g1 & -> & R1). cbn [bind]. pose proof (A [] f x _ eq_refl) as A1. cbn in A1. rewrite Z.add_0_r in A1. rewrite A1, (load_field_ok f x (conj P1 P2) F1). cbn [bind].
    apply (at_off_app raw off [(f, x)]) in A as [_ A2]. unfold width in A2. cbn [fold_right fst snd] in A2. rewrite Z.add_0_r in A2. destruct (IH fs (off + snd f) g1 C2 L F2 R1 ltac:(lia) A2 ltac:(lia)) as (g2 & -> & R2). cbn [bind]. exists g2. split; [reflexivity|].
    unfold bits_of. cbn [fold_right]. fold (bits_of fmt). now rewrite Z.add_assoc.
Qed.
Lemma load_ok raw fmt : bytes_ok raw -> Forall code_ok fmt -> forall shape v off g, shaped shape v -> elements_ok fmt v -> Forall (fun x => field_ok (fst x) (snd x)) (fields fmt v) -> rok raw off g -> 0 <= off -> at_off raw off (fields fmt v) -> off + width (fields fmt v) <= 8 * zlen raw ->
  exists g', load fmt shape g = Ret (v, g') /\ rok raw (off + width (fields fmt v)) g'.
Proof.
  intros Ok C. induction shape as [|n r IH]; intros [fs|l] off g S E F R O A B; cbn [shaped elements_ok fields load] in *; try contradiction.
  - rewrite width_combine in B |- * by assumption. destruct (load_fields_ok raw Ok fmt fs off g C E F R O A B) as (g' & -> & R'). cbn [bind]. eauto.
  - destruct S as [<- S]. unfold zlen at 1. rewrite Nat2Z.id. enough (T : exists g', times (length l) (load fmt r) g = Ret (l, g') /\ rok raw (off + width (flat_map (fields fmt) l)) g') by (destruct T as (g' & -> & R'); cbn [bind]; eauto).
    revert off g R O A B. induction S as [|v l Sv _ IHl]; intros off g R O A B; cbn [length times flat_map fold_right] in *; [exists g; unfold width; cbn; rewrite Z.add_0_r; auto|].
    destruct E as [E1 E2]. apply Forall_app in F as [F1 F2]. apply at_off_app in A as [A1 A2]. rewrite width_app in B. pose proof (width_nonneg _ (code_fields fmt C v E1)) as W1. assert (W2 : 0 <= width (flat_map (fields fmt) l)) by (apply width_nonneg; apply (code_fields fmt C (VList l)); exact E2).
    destruct (IH v off g Sv E1 F1 R O A1 ltac:(lia)) as (g1 & -> & R1). cbn [bind]. destruct (IHl E2 F2 _ g1 R1 ltac:(lia) A2 ltac:(lia)) as (g2 & -> & R2). cbn [bind]. exists g2. split; [reflexivity|]. now rewrite width_app, Z.add_assoc.
Qed.
Lemma bits_at_app a b off w : bytes_ok a -> bytes_ok b -> 0 <= off -> 0 <= w -> off + w <= 8 * zlen a -> bits_at (a ++ b) off w = bits_at a off w.
Proof.
  intros A B O W L. rewrite (bits_at_firstn (a ++ b) off w (length a)); [|apply bytes_ok_app; auto|rewrite app_length; lia|assumption|assumption|exact L]. rewrite firstn_app, Nat.sub_diag, firstn_all, firstn_O, app_nil_r. reflexivity.
Qed.
(** Packing and unpacking gives the same value; bytes that follow do not matter. *)
Theorem C43_roundtrip fmt shape v : Forall code_ok fmt -> shaped shape v -> elements_ok fmt v -> Forall (fun x => field_ok (fst x) (snd x)) (fields fmt v) ->
  exists out, pack fmt shape v = Ret out /\ bytes_ok out /\ forall more, bytes_ok more -> unpack fmt shape (out ++ more) = Ret v.
Proof.
  intros C S E F. destruct (C43_layout fmt shape v C S E F) as (out & P & Ok & Z & A & _). exists out. split; [exact P|]. split; [exact Ok|]. intros more Om. pose proof (code_fields fmt C v E) as Cf. pose proof (width_nonneg _ Cf) as W0.
  assert (L : width (fields fmt v) <= 8 * zlen out) by (rewrite Z; pose proof (Z.div_mod (width (fields fmt v) + 7) 8 ltac:(lia)); pose proof (Z.mod_pos_bound (width (fields fmt v) + 7) 8 ltac:(lia)); lia).
  unfold unpack. destruct (load_ok (out ++ more) fmt (proj2 (bytes_ok_app _ _) (conj Ok Om)) C shape v 0 (d_init (out ++ more)) S E F (init_rok _) ltac:(lia)) as (g' & -> & _); [| |reflexivity].
  - intros l1 f x l2 El. rewrite Z.add_0_l, bits_at_app; auto; [now apply A with l2| | |]; rewrite El in Cf, L; apply Forall_app in Cf as [C1 C2]; inversion_clear C2 as [|? ? [C2' _] C3]; pose proof (width_nonneg _ C1); pose proof (width_nonneg _ C3); cbn [fst] in *; try lia.
    rewrite width_app in L. unfold width in L at 2. cbn [fold_right fst snd] in L. fold (width l2) in L. lia.
  - rewrite zlen_app. pose proof (zlen_nonneg more). lia.
Qed.

(** A value with an integer that does not fit is refused. *)
Theorem C43_range fmt shape v : Forall code_ok fmt -> shaped shape v -> elements_ok fmt v ->
  Forall (fun x => field_ok (fst x) (snd x) \/ field_bad (fst x) (snd x)) (fields fmt v) -> Exists (fun x => field_bad (fst x) (snd x)) (fields fmt v) ->
  pack fmt shape v = Raise ValueError.
Proof.
  intros C S E T B. unfold pack. rewrite <- (width_fields fmt shape v S E), (store_flat fmt shape v _ S). pose proof (code_fields fmt C v E) as Cf. set (l := fields fmt v) in *. clearbody l. clear S E.
  assert (X : exists a x b, l = a ++ x :: b /\ Forall (fun x => field_ok (fst x) (snd x)) a /\ field_bad (fst x) (snd x)).
  { clear Cf. induction T as [|x l [Hx|Hx] T IH]; [inversion B| |exists [], x, l; auto]. inversion_clear B as [? ? B0|? ? B0].
    - exists [], x, l. auto.
    - destruct (IH B0) as (a & y & b & -> & A1 & A2). exists (x :: a), y, b. split; [reflexivity|]. split; [now constructor|exact A2]. }
  destruct X as (a & [f x] & b & -> & Fa & Bx). cbn [fst snd] in Bx. apply Forall_app in Cf as [Ca Cb]. inversion_clear Cb as [|? ? Cx Cb']. cbn [fst] in Cx. destruct (sent_ok a Ca Fa) as [Es Bo]. rewrite store_fields_app, Es.
  pose proof (width_nonneg _ Ca) as W1. pose proof (width_nonneg _ Cb') as W2. destruct Cx as [Cx1 Cx2] eqn:EC. assert (Wt : width (a ++ (f, x) :: b) = width a + (snd f + width b)) by (rewrite width_app; reflexivity). rewrite Wt.
  set (n := (width a + (snd f + width b) + 7) / 8). assert (N : width a <= 8 * n) by (unfold n; pose proof (Z.div_mod (width a + (snd f + width b) + 7) 8 ltac:(lia)); pose proof (Z.mod_pos_bound (width a + (snd f + width b) + 7) 8 ltac:(lia)); lia).
  destruct (sends_ok (sent a) (w_init (repeat 0 (Z.to_nat n)))) as (g & -> & _); auto.
  - constructor; cbn; try lia. constructor.
  - cbn. lia.
  - unfold tot, zlen. cbn [w_init w_pos w_bits w_arr]. rewrite repeat_length, wd_sent. lia.
  - cbn [bind store_fields]. rewrite (store_field_bad f x (conj Cx1 Cx2) Bx). reflexivity.
Qed.

(** *** Examples: two elements of three fields, of 1, 7 and 12 bits *)
Definition ex_fmt : format := [(CB, 1); (CI, 7); (CU, 12)].
Definition ex_v : value := VList [VElem [FBool true; FInt (-3); FInt 4000]; VElem [FBool false; FInt 63; FInt 1]].
Example C43_ex : pack ex_fmt [2] ex_v = Ret [253; 250; 3; 240; 1] /\ unpack ex_fmt [2] [253; 250; 3; 240; 1] = Ret ex_v.
Proof. split; vm_compute; reflexivity. Qed.
Example C43_ex_hyps : Forall code_ok ex_fmt /\ shaped [2] ex_v /\ elements_ok ex_fmt ex_v /\ Forall (fun x => field_ok (fst x) (snd x)) (fields ex_fmt ex_v).
Proof. repeat split; repeat constructor; unfold field_ok; cbn; lia. Qed.
Example C43_ex_range : pack ex_fmt [1] (VList [VElem [FBool true; FInt 64; FInt 0]]) = Raise ValueError. Proof. vm_compute. reflexivity. Qed.

Print Assumptions C43_layout.
Print Assumptions C43_roundtrip.
Print Assumptions C43_range.
