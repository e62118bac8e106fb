(** C43, C45: items in Python. *)
From Coq Require Import ZArith List Bool Lia.
From Verif Require Import Base CodecModel PacketSpec SendPacketModel SendSpec E2EProofs BitsModel BitsSpec BitsProofs BitsProps ItemModel ItemSpec.
Import ListNotations.
Open Scope Z_scope.

Lemma fits_compatible d s : fits (ds_shape d) s -> compatible_shape d s = true.
Proof.
  unfold compatible_shape. induction 1 as [|x n l s H F IH]; [reflexivity|]. apply andb_true_iff in IH as [I1 I2]. apply andb_true_iff. split; [exact I1|]. cbn [combine forallb fst snd]. apply andb_true_iff. split; [|exact I2]. destruct x; [subst; apply Z.eqb_refl|reflexivity].
Qed.
Lemma dyn_map l s k : fits l s -> existsb is_none l = false -> map (fun x => match x with Some n => n | None => k end) l = s.
Proof. induction 1 as [|x n l s H F IH]; intro E; [reflexivity|]. cbn [existsb map] in *. destruct x; cbn [is_none orb] in *; [|discriminate]. now rewrite IH, H. Qed.
Lemma dyn_fixed d s m : fits (ds_shape d) s -> is_variable_size d = false -> dynamic_shape d m = s.
Proof. intros F V. unfold dynamic_shape. now apply dyn_map. Qed.
Lemma known_fixed l s : fits l s -> existsb is_none l = false -> product s = known l.
Proof. induction 1 as [|x n l s H F IH]; intro E; [reflexivity|]. cbn [existsb] in E. destruct x; cbn [is_none orb] in E; [|discriminate]. unfold product, known in *. cbn [fold_right]. rewrite IH by assumption. now subst. Qed.
Lemma filter_none l : (length (filter is_none l) = 0)%nat -> existsb is_none l = false.
Proof. induction l as [|x l IH]; [reflexivity|]. cbn [filter existsb]. destruct (is_none x); cbn [length orb]; [discriminate|exact IH]. Qed.
Lemma product_pos s : Forall (fun n => 0 < n) s -> 0 < product s. Proof. unfold product. induction 1; cbn [fold_right]; nia. Qed.
Lemma dyn_var l s : fits l s -> (length (filter is_none l) <= 1)%nat -> existsb is_none l = true -> Forall (fun n => 0 < n) s ->
  exists m, 0 < m /\ 0 < known l /\ product s = known l * m /\ map (fun x => match x with Some n => n | None => m end) l = s.
Proof.
  induction 1 as [|x n l s H F IH]; intros C E P; [discriminate|]. inversion_clear P as [|? ? P1 P2]. cbn [filter existsb] in *. destruct x as [k|]; cbn [is_none orb length] in *.
  - destruct (IH C E P2) as (m & M & K & Pr & Mp). exists m. subst k. unfold product, known in *. cbn [fold_right map]. rewrite Pr, Mp. repeat split; auto; nia.
  - assert (X : existsb is_none l = false) by (apply filter_none; lia). exists n. pose proof (known_fixed l s F X) as Kf. pose proof (product_pos s P2). unfold product, known in *. cbn [fold_right map]. rewrite (dyn_map l s n F X). repeat split; lia.
Qed.
Lemma dyn_ok d s m : descr_ok d -> fits (ds_shape d) s -> Forall (fun n => 0 < n) s -> (is_variable_size d = true -> product s <= m < product s + known (ds_shape d)) -> dynamic_shape d m = s.
Proof.
  intros [C _] F P V. destruct (is_variable_size d) eqn:E; [|now apply dyn_fixed]. destruct (dyn_var _ _ F C E P) as (k & K & Kn & Pr & Mp). unfold dynamic_shape. specialize (V eq_refl). destruct (Z.eqb_spec (known (ds_shape d)) 0); [lia|].
  replace (m / known (ds_shape d)) with k; [exact Mp|]. apply (Z.div_unique_pos m (known (ds_shape d)) k (m - product s)); lia.
Qed.
Lemma found_pos s : Forall (fun n => 0 < n) s -> found_shape s = s. Proof. induction 1 as [|n s H _ IH]; [reflexivity|]. cbn [found_shape]. destruct (Z.eqb_spec n 0); [lia|]. now rewrite IH. Qed.
Lemma chunks_concat n : (0 < n)%nat -> forall elems fuel, Forall (fun e => length e = n) elems -> (length (concat elems) <= fuel)%nat -> chunks fuel n (concat elems) = elems.
Proof.
  intros N. induction elems as [|e elems IH]; intros fuel F L; cbn [concat] in *; [now destruct fuel|]. inversion_clear F as [|? ? F1 F2]. rewrite app_length in L. destruct fuel as [|f]; [lia|]. destruct e as [|b e]; [cbn in F1; lia|]. cbn [app chunks]. change (b :: e ++ concat elems) with ((b :: e) ++ concat elems).
  rewrite firstn_app, skipn_app, F1, Nat.sub_diag, firstn_O, app_nil_r, skipn_O, firstn_all2, skipn_all2 by lia. cbn [app]. rewrite IH; auto. cbn [length] in L. lia.
Qed.
Lemma concat_len n (elems : list (list Z)) : Forall (fun e => zlen e = n) elems -> zlen (concat elems) = zlen elems * n.
Proof. induction 1 as [|e l H _ IH]; cbn [concat]; [reflexivity|]. rewrite zlen_app, IH, H. unfold zlen. cbn [length]. lia. Qed.
Lemma tail_app a b : b <> [] -> tail_of (zlen b) (a ++ b) = b.
Proof.
  intro N. unfold tail_of. destruct (Z.eqb_spec (zlen b) 0) as [Z|]; [unfold zlen in Z; destruct b; [congruence|cbn in Z; lia]|]. rewrite zlen_app. replace (Z.to_nat (zlen a + zlen b - zlen b)) with (length a) by (unfold zlen; lia).
  rewrite skipn_app, skipn_all, Nat.sub_diag. reflexivity.
Qed.

(** The item as it arrives: what C07 says is received for a buffer. *)
Definition arrived (hab id : Z) (d : descr) (out : list Z) : raw_item :=
  let it := Buffer id (allow_immediate d) out in
  {| rw_imm := use_immediate it (hab / 8); rw_value := if use_immediate it (hab / 8) then be_decode out else 0; rw_bytes := received_value hab it |}.

Lemma arrived_bytes hab id d out : exists pre, rw_bytes (arrived hab id d out) = pre ++ out /\ (rw_imm (arrived hab id d out) = false -> pre = []) /\ (rw_imm (arrived hab id d out) = true -> is_variable_size d = false /\ zlen pre + zlen out = hab / 8 /\ rw_value (arrived hab id d out) = be_decode out).
Proof.
  unfold arrived. cbn [rw_bytes rw_imm rw_value use_immediate received_value]. destruct (allow_immediate d && (zlen out <=? hab / 8)) eqn:E.
  - exists (repeat 0 (Z.to_nat (hab / 8 - zlen out))). split; [reflexivity|]. split; [discriminate|]. intros _. apply andb_true_iff in E as [E1 E2]. apply Z.leb_le in E2. split; [|split; [unfold zlen in *; rewrite repeat_length; lia|reflexivity]]. unfold allow_immediate in E1. apply andb_true_iff in E1 as [E1 _]. now apply negb_true_iff in E1.
  - exists []. split; [reflexivity|]. split; [reflexivity|discriminate].
Qed.

(** On the numpy path *)
Lemma numpy_item np d s elems hab id : descr_ok d -> value_ok d (Array s elems) -> Forall (fun n => 0 < n) s ->
  to_buffer np d (Array s elems) = Ret (concat elems) /\ set_from_raw d (arrived hab id d (concat elems)) = Ret (Array s elems).
Proof.
  intros D (Hp & F & L & E) P. split; [unfold to_buffer; rewrite Hp, fits_compatible by assumption; reflexivity|].
  assert (exists sz, 0 < sz /\ itemsize_bits d = 8 * sz) as (sz & Sz & Ib).
  { destruct D as [_ D]. destruct elems as [|e elems]; [unfold zlen in L; cbn in L; pose proof (product_pos s P); lia|]. inversion_clear E as [|? ? [_ E1] _]. exists (zlen e). split; [|lia]. pose proof (zlen_nonneg e). assert (itemsize_bits d <> 0); [|lia]. unfold itemsize_bits in *. destruct (ds_typ d) as [n|fmt]; [lia|].
    destruct D as [D1 D2]. destruct fmt as [|f fmt]; [congruence|]. inversion_clear D2 as [|? ? [C _] C2]. unfold bits_of. cbn [fold_right]. assert (0 <= bits_of fmt) by (clear - C2; unfold bits_of; induction C2 as [|? ? [? _] _ ?]; cbn [fold_right]; lia). unfold bits_of in *. lia. }
  assert (E' : Forall (fun e => zlen e = sz) elems) by (eapply Forall_impl; [|exact E]; cbn; intros ? [_ ?]; lia). pose proof (concat_len sz elems E') as Lc. rewrite L in Lc. pose proof (product_pos s P) as Pp.
  unfold set_from_raw. rewrite Hp, Ib. replace (8 * sz / 8) with sz by (symmetry; rewrite Z.mul_comm; apply Z.div_mul; lia). destruct (arrived_bytes hab id d (concat elems)) as (pre & Eb & Ea & Ei). rewrite Eb.
  set (M := zlen (pre ++ concat elems) / sz). assert (HM : product s <= M) by (unfold M; rewrite zlen_app, Lc; apply Z.div_le_lower_bound; [lia|]; pose proof (zlen_nonneg pre); nia).
  assert (Ds : dynamic_shape d M = s).
  { apply dyn_ok; auto. intro V. destruct (rw_imm (arrived hab id d (concat elems))); [destruct (Ei eq_refl); congruence|]. assert (Em : M = product s) by (unfold M; rewrite (Ea eq_refl); cbn [app]; rewrite Lc; apply Z.div_mul; lia). destruct (dyn_var _ _ F (proj1 D) V P) as (m & _ & Kn & _). lia. }
  rewrite Ds. destruct (Z.ltb_spec M (product s)); [lia|]. rewrite <- Lc. 
  replace (if rw_imm (arrived hab id d (concat elems)) then tail_of (zlen (concat elems)) (pre ++ concat elems) else firstn (Z.to_nat (zlen (concat elems))) (pre ++ concat elems)) with (concat elems).
  - unfold view. rewrite Lc, Z.mod_mul by lia. cbn [Z.eqb]. rewrite chunks_concat; [|lia| |lia].
    + cbn [bind]. unfold reshape. rewrite L, Z.eqb_refl. reflexivity.
    + eapply Forall_impl; [|exact E']. cbn. unfold zlen. intros ? ?. lia.
  - destruct (rw_imm (arrived hab id d (concat elems))); [|rewrite (Ea eq_refl); unfold zlen; rewrite Nat2Z.id; cbn [app]; now rewrite firstn_all]. symmetry. apply tail_app. intro X. rewrite X in Lc. cbn in Lc. unfold zlen in Lc. cbn in Lc. nia.
Qed.

(** On the general path *)
Definition general (d : descr) (r : raw_item) (fmt : format) : res pyval :=
  let max_elements := zlen (rw_bytes r) * 8 / itemsize_bits d in
  let shape := dynamic_shape d max_elements in
  let elements := product shape in
  if max_elements <? elements then Raise ValueError
  else let raw := if rw_imm r then tail_of ((elements * itemsize_bits d + 7) / 8) (rw_bytes r) else rw_bytes r in
    bind (unpack fmt shape raw) (fun v => Ret (Nested (found_shape shape) v)).
Lemma general_item d fmt s v hab id out : descr_ok d -> ds_typ d = Fmt fmt -> fits (ds_shape d) s -> shaped s v -> elements_ok fmt v -> Forall (fun x => field_ok (fst x) (snd x)) (fields fmt v) -> Forall (fun n => 0 < n) s ->
  (is_variable_size d = true -> 8 <= bits_of fmt * known (ds_shape d)) -> pack fmt s v = Ret out -> general d (arrived hab id d out) fmt = Ret (Nested s v).
Proof.
  intros D T F S E Fo P V Pk. pose proof D as [D1 D2]. rewrite T in D2. destruct D2 as [D2 D3]. destruct (C43_layout fmt s v D3 S E Fo) as (out' & Pk' & Ok & Z & _). rewrite Pk in Pk'. injection Pk' as <-. destruct (C43_roundtrip fmt s v D3 S E Fo) as (out' & Pk' & _ & U). rewrite Pk in Pk'. injection Pk' as <-.
  specialize (U [] (Forall_nil _)). rewrite app_nil_r in U. rewrite (width_fields fmt s v S E) in Z. pose proof (product_pos s P) as Pp.
  assert (B : 0 < bits_of fmt). { destruct fmt as [|f fmt]; [congruence|]. inversion_clear D3 as [|? ? [C _] C2]. unfold bits_of. cbn [fold_right]. assert (0 <= bits_of fmt) by (clear - C2; unfold bits_of; induction C2 as [|? ? [? _] _ ?]; cbn [fold_right]; lia). unfold bits_of in *. lia. }
  unfold general. replace (itemsize_bits d) with (bits_of fmt) by (unfold itemsize_bits; now rewrite T). destruct (arrived_bytes hab id d out) as (pre & Eb & Ea & Ei). rewrite Eb. pose proof (zlen_nonneg pre) as Lp.
  pose proof (Z.div_mod (bits_of fmt * product s + 7) 8 ltac:(lia)) as Dm. pose proof (Z.mod_pos_bound (bits_of fmt * product s + 7) 8 ltac:(lia)) as Mb. rewrite <- Z in Dm.
  set (M := zlen (pre ++ out) * 8 / bits_of fmt). assert (HM : product s <= M) by (unfold M; rewrite zlen_app; apply Z.div_le_lower_bound; lia).
  assert (Ds : dynamic_shape d M = s).
  { apply dyn_ok; auto. intro Vr. split; [exact HM|]. destruct (rw_imm (arrived hab id d out)); [destruct (Ei eq_refl); congruence|]. specialize (V Vr). unfold M. rewrite (Ea eq_refl). cbn [app]. apply Z.div_lt_upper_bound; [lia|]. rewrite Z.mul_add_distr_l. lia. }
  rewrite Ds. destruct (Z.ltb_spec M (product s)); [lia|]. rewrite (Z.mul_comm (product s)), <- Z.
  replace (if rw_imm (arrived hab id d out) then tail_of (zlen out) (pre ++ out) else pre ++ out) with out.
  - rewrite U. cbn [bind]. now rewrite found_pos.
  - destruct (rw_imm (arrived hab id d out)); [|now rewrite (Ea eq_refl)]. symmetry. apply tail_app. intro X. rewrite X in Dm. unfold zlen in Dm. cbn [length] in Dm. nia.
Qed.

(** The scalar fast path writes what the general path writes. *)
Lemma tail_encode n z : (0 < n < 8)%nat -> tail_of (Z.of_nat n) (be_encode 8 z) = be_encode n z.
Proof.
  intro N. assert (E : forall a b z, be_encode (a + b) z = be_encode a (z / 256 ^ Z.of_nat b) ++ be_encode b z).
  { clear. intros a b. induction b as [|b IH]; intro z; [rewrite Nat.add_0_r; cbn; rewrite Z.div_1_r, app_nil_r; reflexivity|]. rewrite Nat.add_succ_r. cbn [be_encode]. rewrite IH, <- app_assoc. rewrite Z.div_div by (try apply Z.pow_pos_nonneg; lia). do 2 f_equal. rewrite Nat2Z.inj_succ, Z.pow_succ_r by lia. reflexivity. }
  replace 8%nat with ((8 - n) + n)%nat by lia. rewrite E. rewrite <- (zlen_be_encode n z) at 1. apply tail_app. intro X. apply (f_equal (@length Z)) in X. rewrite be_encode_length in X. cbn in X. lia.
Qed.
Lemma scalar_pack c n z : 0 < n -> n mod 8 = 0 -> field_ok (c, n) (FInt z) -> code_ok (c, n) -> pack [(c, n)] [] (VElem [FInt z]) = Ret (be_encode (Z.to_nat (n / 8)) (z mod 2 ^ n)).
Proof.
  intros N M F C. destruct (C43_layout [(c, n)] [] (VElem [FInt z])) as (out & -> & Ok & Z & A & _); [repeat constructor; apply C|exact Logic.I|reflexivity|repeat constructor; exact F|]. f_equal. cbn [fields combine] in *. specialize (A [] (c, n) (FInt z) [] eq_refl). unfold width in *. cbn [fold_right fst snd] in *. rewrite Z.add_0_r in *.
  pose proof (Z.div_mod n 8 ltac:(lia)) as D. assert (Zl : zlen out = n / 8) by (rewrite Z; symmetry; apply (Z.div_unique_pos _ 8 (n / 8) 7); lia). unfold bits_at in A. rewrite Zl in A. replace (8 * (n / 8) - 0 - n) with 0 in A by lia. change (2 ^ 0) with 1 in A. rewrite Z.div_1_r in A.
  pose proof (be_decode_bound out Ok) as Bd. rewrite pow256, Zl in Bd by apply zlen_nonneg. replace (8 * (n / 8)) with n in Bd by lia. rewrite Z.mod_small in A by lia. cbn [wire snd] in A. assert (0 <= z mod 2 ^ n < 2 ^ n) by (apply Z.mod_pos_bound, Z.pow_pos_nonneg; lia).
  apply be_decode_inj; auto using be_encode_ok; [rewrite be_encode_length; unfold zlen in Zl; lia|]. rewrite A, be_decode_encode_small; [reflexivity|]. rewrite Z2Nat.id by lia. rewrite pow256 by lia. now replace (8 * (n / 8)) with n by lia.
Qed.

(** A value that can be represented arrives as it was sent, as an immediate or
    not, by whichever path.  With numpy 2 negative integers have to be excluded
    on the scalar path, and variable-size items need elements of a byte or more. *)
Theorem C43_item_partial np hab id d x : flavour_ok hab = true -> descr_ok d -> value_ok d x -> Forall (fun n => 0 < n) (shape_of x) ->
  (is_variable_size d = true -> path d <> PNumpy -> 8 <= itemsize_bits d * known (ds_shape d)) ->
  (forall s z, np = Numpy2 -> path d = PImmediate -> x = Nested s (VElem [FInt z]) -> 0 <= z) ->
  exists out, to_buffer np d x = Ret out /\ set_from_raw d (arrived hab id d out) = Ret x.
Proof.
  intros Hf D Vo P V Ng. destruct x as [s elems|s v]; cbn [shape_of] in P; [exists (concat elems); now apply numpy_item|]. destruct Vo as (Np & F & Vo). destruct (ds_typ d) as [|fmt] eqn:T; [contradiction|]. destruct Vo as (S & E & Fo). pose proof D as [D1 D2]. rewrite T in D2. destruct D2 as [D2 D3].
  assert (V' : is_variable_size d = true -> 8 <= bits_of fmt * known (ds_shape d)) by (intro X; specialize (V X Np); unfold itemsize_bits in V; now rewrite T in V).
  destruct (C43_roundtrip fmt s v D3 S E Fo) as (out & Pk & _ & _). pose proof (general_item d fmt s v hab id out D T F S E Fo P V' Pk) as G. destruct (path d) eqn:Pd; [| |congruence].
  - exists out. unfold to_buffer, set_from_raw. rewrite Pd, T, fits_compatible by assumption. split; [exact Pk|exact G].
  - assert (exists c n z, fmt = [(c, n)] /\ n < 64 /\ (c = CU \/ c = CI) /\ ds_shape d = [] /\ s = [] /\ v = VElem [FInt z] /\ field_ok (c, n) (FInt z) /\ code_ok (c, n)) as (c & n & z & -> & N & Hc & Hs & -> & -> & Fz & Cz).
    { unfold path in Pd. rewrite T in Pd. destruct (forallb numpy_field fmt); [discriminate|]. destruct (ds_shape d) eqn:Es; [|discriminate]. inversion F; subst. destruct fmt as [|[c n] [|? ?]]; try discriminate; [|destruct c; discriminate].
      destruct v as [fs|]; [|contradiction]. cbn [elements_ok length] in E. destruct fs as [|f [|? ?]]; try discriminate. cbn [fields combine] in Fo. inversion_clear Fo as [|? ? F1 _]. cbn [fst snd] in F1. inversion_clear D3 as [|? ? C1 _].
      destruct c; try discriminate; (destruct (n <? 64) eqn:En; [|discriminate]); apply Z.ltb_lt in En; destruct f; try contradiction; eexists _, n, z; do 6 (split; [first [reflexivity|assumption|now left|now right]|]); split; assumption. }
    assert (N0 : 0 < n) by apply Cz. assert (Ib : itemsize_bits d = n) by (unfold itemsize_bits, bits_of; rewrite T; cbn [fold_right snd]; lia). exists out. split.
    + unfold to_buffer. rewrite Pd, T, Ib, fits_compatible by (rewrite Hs; constructor). destruct (Z.eqb_spec (n mod 8) 0) as [M|M]; [|exact Pk]. rewrite (scalar_pack c n z N0 M Fz Cz) in Pk. injection Pk as <-. pose proof (Z.div_mod n 8 ltac:(lia)) as Dm.
      assert (Nn : exists k, n / 8 = Z.of_nat k /\ (0 < k < 8)%nat) by (exists (Z.to_nat (n / 8)); lia). destruct Nn as (k & Ek & Kb). rewrite Ek, Nat2Z.id. assert (Tail : forall w, w mod 2 ^ n = z mod 2 ^ n -> tail_of (Z.of_nat k) (be_encode 8 w) = be_encode k (z mod 2 ^ n)).
      { intros w Ew. rewrite tail_encode by assumption. apply be_decode_inj; auto using be_encode_ok; [now rewrite !be_encode_length|]. rewrite !be_decode_encode, !pow256 by lia. replace (8 * Z.of_nat k) with n by lia. now rewrite Z.mod_mod by (apply Z.pow_nonzero; lia). }
      unfold as_u8. destruct ((0 <=? z) && (z <? 2 ^ 64)) eqn:Ez; [cbn [bind]; now rewrite Tail|]. destruct np.
      * cbn [bind]. rewrite Tail; [reflexivity|]. replace (2 ^ 64) with (2 ^ (64 - n) * 2 ^ n) by (rewrite <- pow2_split by lia; f_equal; lia). assert (0 < 2 ^ n) by (apply Z.pow_pos_nonneg; lia). assert (0 < 2 ^ (64 - n)) by (apply Z.pow_pos_nonneg; lia).
        rewrite (Z.mul_comm (2 ^ (64 - n))), Z.rem_mul_r by lia. rewrite (Z.mul_comm (2 ^ n)), Z.mod_add, Z.mod_mod by lia. reflexivity.
      * exfalso. specialize (Ng [] z eq_refl eq_refl eq_refl). apply andb_false_iff in Ez as [Ez|Ez]; [apply Z.leb_gt in Ez; lia|apply Z.ltb_ge in Ez]. assert (2 ^ n < 2 ^ 64) by (apply Z.pow_lt_mono_r; lia). unfold field_ok in Fz. cbn [fst snd] in Fz. destruct (half n N0). destruct Hc; subst c; lia.
    + unfold set_from_raw. rewrite Pd, T. destruct (rw_imm (arrived hab id d out) && (zlen (rw_bytes (arrived hab id d out)) * 8 =? n)) eqn:Im; [|exact G]. apply andb_true_iff in Im as [Im1 Im2]. apply Z.eqb_eq in Im2. destruct (arrived_bytes hab id d out) as (pre & Eb & _ & Ei). destruct (Ei Im1) as (_ & El & Ev).
      assert (Em : n mod 8 = 0) by (rewrite <- Im2; apply Z.mod_mul; lia). rewrite (scalar_pack c n z N0 Em Fz Cz) in Pk. injection Pk as <-. rewrite Ev. pose proof (Z.div_mod n 8 ltac:(lia)) as Dm. assert (B : 0 <= z mod 2 ^ n < 2 ^ n) by (apply Z.mod_pos_bound, Z.pow_pos_nonneg; lia).
      rewrite be_decode_encode_small by (rewrite Z2Nat.id by lia; rewrite pow256 by lia; now replace (8 * (n / 8)) with n by lia). destruct (half n N0) as [H1 H2]. rewrite shl1' by lia. do 5 f_equal. unfold field_ok in Fz. cbn [fst snd] in Fz. destruct Hc; subst c; [rewrite Z.mod_small by lia; reflexivity|].
      destruct (Z_lt_le_dec z 0) as [Lz|Lz].
      * rewrite <- (Z.mod_unique z (2 ^ n) (-1) (z + 2 ^ n)) by lia.
        destruct (Z.leb_spec (2 ^ (n - 1)) (z + 2 ^ n)); lia.
      * rewrite Z.mod_small by lia. destruct (Z.leb_spec (2 ^ (n - 1)) z); lia.
Qed.

(** *** What is not so *)
(** On the scalar path integers that do not fit are not refused but cut. *)
Theorem C43_range_refuted : exists np d z, descr_ok d /\ ds_typ d = Fmt [(CU, 24)] /\ field_bad (CU, 24) (FInt z) /\ to_buffer np d (Nested [] (VElem [FInt z])) = Ret [0; 0; 5] /\ set_from_raw d (arrived 48 5000 d [0; 0; 5]) = Ret (Nested [] (VElem [FInt 5])).
Proof.
  exists Numpy2, {| ds_shape := []; ds_typ := Fmt [(CU, 24)] |}, (2 ^ 24 + 5). split; [split; [cbn; lia|split; [discriminate|repeat constructor]]|]. split; [reflexivity|]. split; [unfold field_bad; cbn; lia|]. split; vm_compute; reflexivity.
Qed.
(** With numpy 2 a negative integer cannot be sent on the scalar path. *)
Theorem C43_negative_refuted : exists d x, descr_ok d /\ value_ok d x /\ to_buffer Numpy2 d x = Raise OverflowError.
Proof.
  exists {| ds_shape := []; ds_typ := Fmt [(CI, 24)] |}, (Nested [] (VElem [FInt (-5)])). split; [split; [cbn; lia|split; [discriminate|repeat constructor]]|]. split; [|vm_compute; reflexivity].
  split; [discriminate|]. split; [constructor|]. split; [exact Logic.I|]. split; [reflexivity|]. repeat constructor; cbn; lia.
Qed.
(** A variable-size item of 3 elements of 4 bits arrives with 4 elements. *)
Theorem C43_variable_refuted : exists d x y out, descr_ok d /\ value_ok d x /\ is_variable_size d = true /\ to_buffer Numpy2 d x = Ret out /\ set_from_raw d (arrived 48 5000 d out) = Ret y /\ shape_of x = [3] /\ shape_of y = [4].
Proof.
  exists {| ds_shape := [None]; ds_typ := Fmt [(CU, 4)] |}, (Nested [3] (VList [VElem [FInt 1]; VElem [FInt 2]; VElem [FInt 3]])), (Nested [4] (VList [VElem [FInt 1]; VElem [FInt 2]; VElem [FInt 3]; VElem [FInt 0]])), [18; 48].
  split; [split; [cbn; lia|split; [discriminate|repeat constructor]]|]. split; [|repeat split; vm_compute; reflexivity].
  split; [discriminate|]. split; [repeat constructor|]. split; [split; [reflexivity|repeat constructor]|]. split; [repeat split; reflexivity|]. repeat constructor; cbn; lia.
Qed.

(** C45: arrays without elements.  A numpy array without elements is refused by the
    receiver, whatever its type and shape and whatever the flavour. *)
Theorem C45_numpy_refuted np hab id d s : flavour_ok hab = true -> descr_ok d -> path d = PNumpy -> is_variable_size d = false -> fits (ds_shape d) s -> product s = 0 ->
  to_buffer np d (Array s []) = Ret [] /\ set_from_raw d (arrived hab id d []) = Raise ValueError.
Proof.
  intros Hf D Pd V F Pz. split; [unfold to_buffer; rewrite Pd, fits_compatible by assumption; reflexivity|].
  assert (Al : allow_immediate d = true). { unfold allow_immediate. rewrite V. cbn [negb andb]. destruct (ds_typ d) as [|fmt] eqn:T; [reflexivity|]. unfold path in Pd. rewrite T in Pd. unfold itemsize_bits. rewrite T. destruct (forallb numpy_field fmt) eqn:Fn; [|destruct (ds_shape d), fmt as [|[[] ?] [|? ?]]; try discriminate; destruct (_ <? _); discriminate].
    apply Z.eqb_eq. clear - Fn. unfold bits_of. induction fmt as [|[c n] fmt IH]; cbn [forallb fold_right snd] in *; [reflexivity|]. apply andb_true_iff in Fn as [F1 F2]. rewrite Z.add_mod, (IH F2), Z.add_0_r, Z.mod_mod by lia. unfold numpy_field in F1. cbn [fst snd] in F1.
    destruct c; rewrite ?orb_true_iff, ?Z.eqb_eq in F1; [destruct F1 as [[[->| ->]| ->]| ->]|destruct F1 as [[[->| ->]| ->]| ->]|subst n|subst n|destruct F1 as [->| ->]]; reflexivity. }
  pose proof (CodecProofs.flavour_ok_range hab Hf) as Hr. assert (Hb : 1 <= hab / 8) by (apply Z.div_le_lower_bound; lia).
  unfold arrived. cbn [use_immediate]. rewrite Al. cbn [andb]. change (zlen (@nil Z)) with 0. destruct (Z.leb_spec 0 (hab / 8)); [|lia]. cbn [received_value andb]. change (zlen (@nil Z)) with 0. destruct (Z.leb_spec 0 (hab / 8)); [|lia]. rewrite app_nil_r, Z.sub_0_r.
  unfold set_from_raw. cbn [rw_bytes rw_imm rw_value]. rewrite Pd. set (raw := repeat 0 (Z.to_nat (hab / 8))). assert (Lr : zlen raw = hab / 8) by (unfold raw, zlen; rewrite repeat_length; lia). set (sz := itemsize_bits d / 8). rewrite (dyn_fixed d s) by assumption. rewrite Pz.
  destruct (Z.ltb_spec (zlen raw / sz) 0); [reflexivity|]. rewrite Z.mul_0_l. unfold tail_of. cbn [Z.eqb]. unfold view. destruct (zlen raw mod sz =? 0); [|reflexivity]. cbn [bind]. unfold reshape. rewrite Pz.
  destruct raw as [|b raw']; [unfold zlen in Lr; cbn in Lr; lia|]. cbn [length chunks]. unfold zlen. cbn [length]. destruct (Z.eqb_spec (Z.of_nat (S (length (chunks (length raw') (Z.to_nat sz) (skipn (Z.to_nat sz) (b :: raw')))))) 0); [lia|reflexivity].
Qed.
(** On the general path it works if no dimension follows the one that is 0. *)
Theorem C45_general_partial np hab id d fmt s v : descr_ok d -> ds_typ d = Fmt fmt -> path d = PNone -> is_variable_size d = false -> value_ok d (Nested s v) -> product s = 0 -> found_shape s = s ->
  to_buffer np d (Nested s v) = Ret [] /\ set_from_raw d (arrived hab id d []) = Ret (Nested s v).
Proof.
  intros D T Pd V (_ & F & Vo) Pz Fs. rewrite T in Vo. destruct Vo as (S & E & Fo). pose proof D as [D1 D2]. rewrite T in D2. destruct D2 as [D2 D3]. destruct (C43_layout fmt s v D3 S E Fo) as (out & Pk & Ok & Z & _). rewrite (width_fields fmt s v S E), Pz, Z.mul_0_r in Z.
  assert (out = []) by (change ((0 + 7) / 8) with 0 in Z; unfold zlen in Z; destruct out; [reflexivity|cbn in Z; lia]). subst out. split; [unfold to_buffer; rewrite Pd, T, fits_compatible by assumption; exact Pk|]. destruct (C43_roundtrip fmt s v D3 S E Fo) as (out & Pk' & _ & U). rewrite Pk in Pk'. injection Pk' as <-.
  unfold set_from_raw. rewrite Pd, T. destruct (arrived_bytes hab id d []) as (pre & Eb & _). set (r := arrived hab id d []) in *. rewrite Eb, app_nil_r. rewrite dyn_fixed with (s := s) by assumption. rewrite Pz.
  assert (Bp : bytes_ok pre). { unfold r, arrived in Eb. cbn [rw_bytes received_value] in Eb. rewrite !app_nil_r in Eb. destruct (allow_immediate d && _); rewrite <- Eb; [apply Forall_forall; intros x Hx; apply repeat_spec in Hx; subst; cbv; intuition congruence|constructor]. }
  assert (B : 0 < bits_of fmt). { destruct fmt as [|f fmt]; [congruence|]. inversion_clear D3 as [|? ? [C _] C2]. unfold bits_of. cbn [fold_right]. assert (0 <= bits_of fmt) by (clear - C2; unfold bits_of; induction C2 as [|? ? [? _] _ ?]; cbn [fold_right]; lia). unfold bits_of in *. lia. }
  replace (itemsize_bits d) with (bits_of fmt) by (unfold itemsize_bits; now rewrite T). destruct (Z.ltb_spec (zlen pre * 8 / bits_of fmt) 0) as [X|_]; [pose proof (zlen_nonneg pre); pose proof (Z.div_pos (zlen pre * 8) (bits_of fmt)); lia|].
  rewrite Z.mul_0_l. change ((0 + 7) / 8) with 0. unfold tail_of. cbn [Z.eqb]. replace (if rw_imm r then pre else pre) with pre by now destruct (rw_imm r). specialize (U pre Bp). cbn [app] in U. rewrite U. cbn [bind]. now rewrite Fs.
Qed.
(** Otherwise the dimensions are lost. *)
Theorem C45_shape_refuted : exists d x y, descr_ok d /\ value_ok d x /\ to_buffer Numpy2 d x = Ret [] /\ set_from_raw d (arrived 48 5000 d []) = Ret y /\ shape_of x = [0; 3] /\ shape_of y = [0].
Proof.
  exists {| ds_shape := [Some 0; Some 3]; ds_typ := Fmt [(CU, 24)] |}, (Nested [0; 3] (VList [])), (Nested [0] (VList [])). split; [split; [cbn; lia|split; [discriminate|repeat constructor]]|]. split; [|repeat split; vm_compute; reflexivity].
  split; [discriminate|]. split; [repeat constructor|]. split; [split; [reflexivity|constructor]|]. split; [exact Logic.I|constructor].
Qed.

(** *** Examples *)
Definition ex_d1 : descr := {| ds_shape := [Some 2]; ds_typ := Fmt [(CI, 12); (CB, 4)] |}.
Definition ex_x1 : pyval := Nested [2] (VList [VElem [FInt (-2); FBool true]; VElem [FInt 2047; FBool false]]).
Example C43_item_ex : to_buffer Numpy2 ex_d1 ex_x1 = Ret [255; 225; 127; 240] /\ use_immediate (Buffer 5000 (allow_immediate ex_d1) [255; 225; 127; 240]) 6 = true /\ set_from_raw ex_d1 (arrived 48 5000 ex_d1 [255; 225; 127; 240]) = Ret ex_x1.
Proof. repeat split; vm_compute; reflexivity. Qed.
Definition ex_d2 : descr := {| ds_shape := [None; Some 3]; ds_typ := Fmt [(CU, 16)] |}.
Definition ex_x2 : pyval := Array [2; 3] [[1; 2]; [3; 4]; [5; 6]; [7; 8]; [9; 10]; [11; 12]].
Example C43_item_ex2 : to_buffer Numpy2 ex_d2 ex_x2 = Ret [1; 2; 3; 4; 5; 6; 7; 8; 9; 10; 11; 12] /\ set_from_raw ex_d2 (arrived 40 5000 ex_d2 [1; 2; 3; 4; 5; 6; 7; 8; 9; 10; 11; 12]) = Ret ex_x2.
Proof. split; vm_compute; reflexivity. Qed.
Definition ex_d3 : descr := {| ds_shape := []; ds_typ := Fmt [(CI, 48)] |}.
Example C43_item_ex3 : path ex_d3 = PImmediate /\ to_buffer Numpy1 ex_d3 (Nested [] (VElem [FInt (-2)])) = Ret [255; 255; 255; 255; 255; 254] /\
  set_from_raw ex_d3 (arrived 48 5000 ex_d3 [255; 255; 255; 255; 255; 254]) = Ret (Nested [] (VElem [FInt (-2)])) /\ set_from_raw ex_d3 (arrived 56 5000 ex_d3 [255; 255; 255; 255; 255; 254]) = Ret (Nested [] (VElem [FInt (-2)])).
Proof. repeat split; vm_compute; reflexivity. Qed.
Example C45_ex : exists d s, descr_ok d /\ path d = PNumpy /\ is_variable_size d = false /\ fits (ds_shape d) s /\ product s = 0.
Proof. exists {| ds_shape := [Some 5; Some 0]; ds_typ := Dtype 8 |}, [5; 0]. repeat split; try (cbn; lia); repeat constructor. Qed.

Print Assumptions C43_item_partial.
Print Assumptions C43_range_refuted.
Print Assumptions C43_negative_refuted.
Print Assumptions C43_variable_refuted.
Print Assumptions C45_numpy_refuted.
Print Assumptions C45_general_partial.
Print Assumptions C45_shape_refuted.
