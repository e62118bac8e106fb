(** C68: numpy arrays in any memory and byte order, and strings. *)
From Coq Require Import ZArith List Bool Arith Lia.
From Verif Require Import Base BitsModel BitsSpec ItemModel ItemSpec ItemProps NumpyModel NumpySpec.
Import ListNotations.
Open Scope Z_scope.

(** *** Memory order *)
Lemma ravel_len {X} shape (get : list nat -> X) : length (c_ravel shape get) = elements shape.
Proof.
  revert get. induction shape as [|n r IH]; intro get; [reflexivity|]. cbn [c_ravel elements fold_right]. fold (elements r). generalize 0%nat as k. induction n as [|n IHn]; intro k; [reflexivity|]. cbn [seq flat_map]. rewrite app_length, IH, IHn. lia.
Qed.
Lemma nth_flat {Y} (f : nat -> list Y) (m : nat) (d : Y) n i j : (forall k, length (f k) = m) -> (i < n)%nat -> (j < m)%nat -> forall k, nth (i * m + j) (flat_map f (seq k n)) d = nth j (f (k + i)%nat) d.
Proof.
  intros L. revert i. induction n as [|n IH]; intros i Hi Hj k; [lia|]. cbn [seq flat_map]. destruct i as [|i].
  - cbn [Nat.mul Nat.add]. rewrite app_nth1 by (rewrite L; lia). now rewrite Nat.add_0_r.
  - rewrite app_nth2 by (rewrite L; lia). rewrite L. replace (S i * m + j - m)%nat with (i * m + j)%nat by lia. rewrite IH by lia. f_equal. f_equal. lia.
Qed.
Lemma c_pos_lt shape idx : index_ok shape idx -> (c_pos shape idx < elements shape)%nat.
Proof. induction 1 as [|i n idx r H _ IH]; cbn [c_pos elements fold_right]; [lia|]. fold (elements r). nia. Qed.
Lemma ravel_nth {X} shape idx (get : list nat -> X) d : index_ok shape idx -> nth (c_pos shape idx) (c_ravel shape get) d = get idx.
Proof.
  intro I. revert get. induction I as [|i n idx r H I IH]; intro get; [reflexivity|]. cbn [c_pos c_ravel]. rewrite (nth_flat (fun i => c_ravel r (fun idx => get (i :: idx))) (elements r) d n i (c_pos r idx)); auto using ravel_len, c_pos_lt. rewrite IH. reflexivity.
Qed.
Lemma horner_gen shape idx acc : length idx = length shape -> fold_left (fun acc x => (acc * snd x + fst x)%nat) (combine idx shape) acc = (acc * elements shape + horner shape idx)%nat.
Proof.
  unfold horner. revert idx acc. induction shape as [|n r IH]; intros [|i idx] acc L; cbn [length combine fold_left elements fold_right] in *; try discriminate; [lia|]. fold (elements r). cbn [fst snd]. rewrite (IH idx (acc * n + i)%nat), (IH idx (0 * n + i)%nat) by lia. lia.
Qed.
Lemma c_horner shape idx : length idx = length shape -> c_pos shape idx = horner shape idx.
Proof.
  revert idx. induction shape as [|n r IH]; intros [|i idx] L; cbn [length] in *; try discriminate; [reflexivity|]. cbn [c_pos]. rewrite IH by lia. unfold horner at 2. cbn [combine fold_left fst snd]. rewrite horner_gen by lia. lia.
Qed.
Lemma f_horner shape idx : length idx = length shape -> f_pos shape idx = horner (rev shape) (rev idx).
Proof.
  revert idx. induction shape as [|n r IH]; intros [|i idx] L; cbn [length] in *; try discriminate; [reflexivity|]. cbn [f_pos rev]. rewrite IH by lia. unfold horner. 
  assert (C : forall (a b : list nat) x y, length a = length b -> combine (a ++ [x]) (b ++ [y]) = combine a b ++ [(x, y)]) by (induction a as [|? a IHa]; intros [|? b] x y E; cbn [length] in E; try discriminate; [reflexivity|]; cbn [app combine]; rewrite IHa by lia; reflexivity).
  rewrite C by (rewrite !rev_length; lia). rewrite fold_left_app. cbn [fold_left fst snd]. lia.
Qed.
Lemma index_len shape idx : index_ok shape idx -> length idx = length shape. Proof. induction 1; cbn [length]; lia. Qed.
Lemma index_rev shape idx : index_ok shape idx -> index_ok (rev shape) (rev idx).
Proof. induction 1; cbn [rev]; [constructor|]. apply Forall2_app; [assumption|repeat constructor; assumption]. Qed.
Lemma elements_app a b : elements (a ++ b) = (elements a * elements b)%nat. Proof. unfold elements. induction a as [|n a IH]; cbn [app fold_right]; [lia|]. rewrite IH. lia. Qed.
Lemma elements_rev s : elements (rev s) = elements s. Proof. induction s as [|n s IH]; [reflexivity|]. cbn [rev]. rewrite elements_app, IH. cbn [elements fold_right]. fold (elements s). lia. Qed.
Lemma buffer_len {X} o (a : arr X) : length (buffer_order o a) = elements (a_shape a).
Proof. destruct o; unfold buffer_order; cbn [transpose a_shape a_get]; rewrite ravel_len; [reflexivity|apply elements_rev]. Qed.
Lemma buffer_nth {X} o (a : arr X) idx d : index_ok (a_shape a) idx -> nth (position o (a_shape a) idx) (buffer_order o a) d = a_get a idx.
Proof.
  intro I. pose proof (index_len _ _ I) as L. destruct o; unfold buffer_order, position; cbn [transpose a_shape a_get].
  - rewrite <- c_horner by assumption. now apply ravel_nth.
  - rewrite <- c_horner by (rewrite !rev_length; assumption). rewrite ravel_nth by now apply index_rev. now rewrite rev_involutive.
Qed.
Lemma position_lt o shape idx : index_ok shape idx -> (position o shape idx < elements shape)%nat.
Proof.
  intro I. pose proof (index_len _ _ I) as L. destruct o; unfold position; rewrite <- c_horner by (rewrite ?rev_length; assumption); [now apply c_pos_lt|]. rewrite <- elements_rev. now apply c_pos_lt, index_rev.
Qed.
Lemma reshape_get {X} (d : X) o shape l idx : index_ok shape idx -> a_get (reshape_nd d o shape l) idx = nth (position o shape idx) l d.
Proof. intro I. pose proof (index_len _ _ I) as L. unfold reshape_nd, position. cbn [a_get]. destruct o; [now rewrite c_horner|now rewrite f_horner]. Qed.
(** Every position of the buffer belongs to an index. *)
Lemma ravel_in {X} shape (get : list nat -> X) x : In x (c_ravel shape get) -> exists idx, index_ok shape idx /\ x = get idx.
Proof.
  revert get. induction shape as [|n r IH]; intros get H; cbn [c_ravel] in H; [destruct H as [<-|[]]; exists []; split; [constructor|reflexivity]|]. apply in_flat_map in H as (i & Hi & H). apply in_seq in Hi. destruct (IH _ H) as (idx & I & ->). exists (i :: idx). split; [constructor; [lia|exact I]|reflexivity].
Qed.
Lemma buffer_in {X} o (a : arr X) x : In x (buffer_order o a) -> exists idx, index_ok (a_shape a) idx /\ x = a_get a idx.
Proof.
  destruct o; unfold buffer_order; cbn [transpose a_shape a_get]; intro H; apply ravel_in in H as (idx & I & ->); [now exists idx|]. exists (rev idx). split; [|reflexivity]. apply index_rev in I. now rewrite rev_involutive in I.
Qed.

(** *** Byte order *)
Lemma enc_field_len f z : length (enc_field f z) = snd f. Proof. unfold enc_field. destruct (fst f); rewrite ?rev_length; apply be_encode_length. Qed.
Lemma enc_field_ok f z : bytes_ok (enc_field f z).
Proof. unfold enc_field. pose proof (be_encode_ok (snd f) z) as H. destruct (fst f); auto. unfold bytes_ok in *. rewrite Forall_forall in *. intros x Hx. apply H. now apply in_rev. Qed.
Lemma dec_enc_field f z : 0 <= z < 256 ^ Z.of_nat (snd f) -> dec_field f (enc_field f z) = z.
Proof. intro H. unfold dec_field, enc_field. destruct (fst f); rewrite ?rev_involutive; now apply be_decode_encode_small. Qed.
Lemma enc_len dt v : elem_ok dt v -> length (enc dt v) = dsize dt.
Proof. induction 1 as [|f z dt v H _ IH]; [reflexivity|]. cbn [enc dsize fold_right]. fold (dsize dt). rewrite app_length, enc_field_len, IH. reflexivity. Qed.
Lemma enc_ok dt v : bytes_ok (enc dt v).
Proof. revert v. induction dt as [|f dt IH]; intros [|z v]; cbn [enc]; try constructor. apply Forall_app. split; [apply enc_field_ok|apply IH]. Qed.
Lemma dec_enc dt v : elem_ok dt v -> dec dt (enc dt v) = v.
Proof.
  induction 1 as [|f z dt v H _ IH]; [reflexivity|]. cbn [enc dec]. rewrite firstn_app, skipn_app, enc_field_len, Nat.sub_diag, firstn_O, app_nil_r, skipn_O, firstn_all2, skipn_all2 by (rewrite enc_field_len; lia). cbn [app]. now rewrite dec_enc_field, IH.
Qed.
Lemma elem_sizes dt dt' v : map snd dt = map snd dt' -> elem_ok dt v -> elem_ok dt' v.
Proof. intros E H. revert dt' E. induction H as [|f z dt v H _ IH]; intros [|f' dt'] E; cbn [map] in E; try discriminate; constructor; injection E as E1 E2; [now rewrite <- E1|now apply IH]. Qed.
Lemma new_sizes n dt : map snd (newbyteorder n dt) = map snd dt. Proof. unfold newbyteorder. rewrite map_map. reflexivity. Qed.

Lemma dsize_numpy fmt : forallb numpy_field fmt = true -> 8 * Z.of_nat (dsize (map field_dtype fmt)) = bits_of fmt.
Proof.
  induction fmt as [|[c n] fmt IH]; intro H; [reflexivity|]. cbn [forallb] in H. apply andb_true_iff in H as [H1 H2]. specialize (IH H2). unfold bits_of in *. cbn [map dsize fold_right snd]. fold (dsize (map field_dtype fmt)). rewrite <- IH. unfold numpy_field in H1. cbn [fst snd] in H1. unfold field_dtype. cbn [fst snd].
  destruct c; rewrite ?orb_true_iff, ?Z.eqb_eq in H1; [destruct H1 as [[[->| ->]| ->]| ->]|destruct H1 as [[[->| ->]| ->]| ->]|subst n|subst n|destruct H1 as [->| ->]]; cbn [snd]; try (change (Z.to_nat (8 / 8)) with 1%nat); try (change (Z.to_nat (16 / 8)) with 2%nat); try (change (Z.to_nat (32 / 8)) with 4%nat); try (change (Z.to_nat (64 / 8)) with 8%nat); lia.
Qed.
Lemma size_ok d : ndescr_ok d -> itemsize_bits (to_descr d) = 8 * Z.of_nat (dsize (internal_dtype d)).
Proof.
  intros [_ P]. destruct d as [s [dt o|fmt]]; unfold itemsize_bits, internal_dtype, to_descr in *; cbn [nd_typ nd_shape ds_typ] in *; [reflexivity|]. symmetry. apply dsize_numpy. unfold path in P. cbn [ds_typ ds_shape] in P. destruct (forallb numpy_field fmt); [reflexivity|]. destruct s; [|discriminate]. destruct fmt as [|[[] n] [|? ?]]; try discriminate; destruct (n <? 64); discriminate.
Qed.
Lemma product_elements s : product (map Z.of_nat s) = Z.of_nat (elements s).
Proof. unfold product, elements. induction s as [|n s IH]; cbn [map fold_right]; [reflexivity|]. rewrite IH. lia. Qed.

Lemma nd_item np d a hab id : ndescr_ok d -> array_ok d a -> let bytes := concat (map (enc (internal_dtype d)) (buffer_order (nd_order d) a)) in
  to_buffer_nd np d a = Ret bytes /\ set_from_raw (to_descr d) (arrived hab id (to_descr d) bytes) = Ret (Array (map Z.of_nat (a_shape a)) (map (enc (internal_dtype d)) (buffer_order (nd_order d) a))).
Proof.
  intros [D P] (F & Pos & El) bytes. apply numpy_item; auto.
  - split; [exact P|]. split; [exact F|]. split; [unfold zlen; rewrite map_length, buffer_len; symmetry; apply product_elements|]. apply Forall_forall. intros e He. apply in_map_iff in He as (v & <- & Hv). apply buffer_in in Hv as (idx & I & ->). specialize (El idx I). split; [apply enc_ok|]. rewrite (size_ok d (conj D P)). unfold zlen. now rewrite enc_len.
  - apply Forall_forall. intros z Hz. apply in_map_iff in Hz as (n & <- & Hn). rewrite Forall_forall in Pos. specialize (Pos n Hn). lia.
Qed.

(** The array arrives with its shape and the value of every element, in the memory
    order of the descriptor and the byte order asked for. *)
Theorem C68_array np hab id d a n : ndescr_ok d -> array_ok d a -> exists bytes dt a',
  to_buffer_nd np d a = Ret bytes /\ set_from_raw_nd d n (arrived hab id (to_descr d) bytes) = Ret (dt, a') /\
  Forall2 (fun f f' => border_as n (fst f) (fst f') /\ snd f' = snd f) (internal_dtype d) dt /\
  a_shape a' = a_shape a /\ forall idx, index_ok (a_shape a) idx -> length (a_get a' idx) = dsize dt /\ dec dt (a_get a' idx) = a_get a idx.
Proof.
  intros D A. destruct (nd_item np d a hab id D A) as [H1 H2]. destruct A as (_ & _ & El). eexists _, _, _. split; [exact H1|]. unfold set_from_raw_nd. rewrite H2. cbn [bind]. split; [reflexivity|].
  assert (Es : map Z.to_nat (map Z.of_nat (a_shape a)) = a_shape a) by (rewrite map_map; erewrite map_ext; [apply map_id|]; intro; apply Nat2Z.id). rewrite Es. split; [|split; [reflexivity|]].
  - unfold newbyteorder. clear. induction (internal_dtype d) as [|[b k] dt IH]; cbn [map]; constructor; auto. cbn [fst snd]. split; [|reflexivity]. destruct b, n; cbn; repeat split; congruence.
  - intros idx I. specialize (El idx I). rewrite reshape_get by assumption. set (dt := internal_dtype d) in *. set (dt' := newbyteorder n dt). pose proof (position_lt (nd_order d) _ _ I) as Lt. rewrite nth_indep with (d' := astype dt dt' (enc dt [])) by (rewrite !map_length, buffer_len; exact Lt).
    rewrite (map_nth (astype dt dt')), (map_nth (enc dt)), buffer_nth by assumption. unfold astype. rewrite dec_enc by assumption. assert (E' : elem_ok dt' (a_get a idx)) by (eapply elem_sizes; [|exact El]; symmetry; apply new_sizes). split; [now apply enc_len|now apply dec_enc].
Qed.
(** In the heap the bytes of an element are at its place in the memory order of the
    descriptor, in the byte order of its dtype, so that receivers other than this
    one find them. *)
Lemma concat_nth m (l : list (list Z)) i : Forall (fun e => length e = m) l -> (i < length l)%nat -> firstn m (skipn (i * m) (concat l)) = nth i l [].
Proof.
  intro F. revert i. induction F as [|e l He F IH]; intros i L; cbn [length] in L; [lia|]. cbn [concat]. destruct i as [|i]; cbn [Nat.mul nth].
  - rewrite skipn_O, firstn_app, He, Nat.sub_diag, firstn_O, app_nil_r. apply firstn_all2. lia.
  - rewrite skipn_app, He. rewrite skipn_all2 by lia. replace (m + i * m - m)%nat with (i * m)%nat by lia. apply IH. lia.
Qed.
Theorem C68_layout np d a : ndescr_ok d -> array_ok d a -> exists bytes,
  to_buffer_nd np d a = Ret bytes /\ length bytes = (elements (a_shape a) * dsize (internal_dtype d))%nat /\
  forall idx, index_ok (a_shape a) idx -> firstn (dsize (internal_dtype d)) (skipn (position (nd_order d) (a_shape a) idx * dsize (internal_dtype d)) bytes) = enc (internal_dtype d) (a_get a idx).
Proof.
  intros D A. destruct (nd_item np d a 48 1 D A) as [H1 _]. destruct A as (_ & _ & El). set (dt := internal_dtype d) in *. assert (Fl : Forall (fun e => length e = dsize dt) (map (enc dt) (buffer_order (nd_order d) a))).
  { apply Forall_forall. intros e He. apply in_map_iff in He as (v & <- & Hv). apply buffer_in in Hv as (idx & I & ->). apply enc_len, El, I. }
  eexists. split; [exact H1|]. split.
  - rewrite <- (buffer_len (nd_order d) a), <- (map_length (enc dt)). clear - Fl. induction Fl as [|e l He _ IH]; [reflexivity|]. cbn [concat length Nat.mul]. rewrite app_length, He, IH. reflexivity.
  - intros idx I. pose proof (position_lt (nd_order d) _ _ I) as Lt. rewrite concat_nth by (rewrite ?map_length, ?buffer_len; assumption). rewrite nth_indep with (d' := enc dt []) by (rewrite map_length, buffer_len; exact Lt). rewrite (map_nth (enc dt)), buffer_nth by assumption. reflexivity.
Qed.
(** An array of the wrong shape is refused. *)
(** With a format, an element is sent as SPEAD has it: as one number with the first
    field in the most significant bits. *)
Lemma numpy_fmt s fmt : path (to_descr {| nd_shape := s; nd_typ := NFmt fmt |}) = PNumpy -> forallb numpy_field fmt = true.
Proof. intro P. unfold path, to_descr in P. cbn [ds_typ ds_shape nd_typ nd_shape] in P. destruct (forallb numpy_field fmt); [reflexivity|]. destruct s; [|discriminate]. destruct fmt as [|[[] n] [|? ?]]; try discriminate; destruct (n <? 64); discriminate. Qed.
Lemma enc_number fmt v : forallb numpy_field fmt = true -> elem_ok (map field_dtype fmt) v -> be_decode (enc (map field_dtype fmt) v) = field_number fmt v.
Proof.
  revert v. induction fmt as [|f fmt IH]; intros v H El; [reflexivity|]. pose proof (dsize_numpy fmt) as Dn. cbn [forallb] in H. apply andb_true_iff in H as [_ H2]. specialize (Dn H2). cbn [map] in *. inversion El as [|? z ? v' Hz Hv]; subst. cbn [enc field_number]. rewrite be_decode_app, IH by assumption. f_equal. unfold zlen. rewrite enc_len by assumption.
  replace (256 ^ Z.of_nat (dsize (map field_dtype fmt))) with (2 ^ bits_of fmt) by (rewrite <- Dn, Z.pow_mul_r by lia; reflexivity). f_equal. unfold enc_field. destruct f as [[] n]; cbn [field_dtype fst snd] in *; apply be_decode_encode_small; exact Hz.
Qed.
Theorem C68_format np s fmt a : let d := {| nd_shape := s; nd_typ := NFmt fmt |} in ndescr_ok d -> array_ok d a -> exists bytes n,
  to_buffer_nd np d a = Ret bytes /\ 8 * Z.of_nat n = bits_of fmt /\ length bytes = (elements (a_shape a) * n)%nat /\
  forall idx, index_ok (a_shape a) idx -> be_decode (firstn n (skipn (horner (a_shape a) idx * n) bytes)) = field_number fmt (a_get a idx).
Proof.
  intros d D A. destruct (C68_layout np d a D A) as (bytes & H1 & H2 & H3). exists bytes, (dsize (internal_dtype d)). pose proof (numpy_fmt s fmt (proj2 D)) as F. split; [exact H1|]. split; [now apply dsize_numpy|]. split; [exact H2|]. intros idx I. specialize (H3 idx I). cbn [d nd_order nd_typ position] in H3. rewrite H3. apply enc_number; [exact F|]. apply A, I.
Qed.
Theorem C68_shape np d a : ndescr_ok d -> ~ fits (nd_shape d) (map Z.of_nat (a_shape a)) -> to_buffer_nd np d a = Raise ValueError.
Proof.
  intros [_ P] N. unfold to_buffer_nd, to_buffer. rewrite P. destruct (compatible_shape _ _) eqn:C; [|now destruct (ds_typ (to_descr d))]. exfalso. apply N. unfold compatible_shape in C. cbn [to_descr ds_shape] in C. clear - C. revert C. generalize (map Z.of_nat (a_shape a)) as s. unfold fits. induction (nd_shape d) as [|x l IH]; intros [|z s] C; apply andb_true_iff in C as [C1 C2]; try discriminate; constructor.
  - cbn [combine forallb fst snd] in C2. apply andb_true_iff in C2 as [C2 _]. destruct x; [symmetry; now apply Z.eqb_eq|exact Logic.I].
  - apply IH. apply andb_true_iff. split; [exact C1|]. cbn [combine forallb] in C2. now apply andb_true_iff in C2 as [_ C2].
Qed.
(** The numpy header gives the dtype back if both ends agree on whether to swap; if
    not, numbers change. *)
Theorem C68_header s dt : header_dtype s (header_dtype s dt) = dt /\ map snd (header_dtype s dt) = map snd dt.
Proof.
  destruct s; cbn [header_dtype]; [|split; reflexivity]. split; [|apply new_sizes]. unfold newbyteorder. rewrite map_map. erewrite map_ext; [apply map_id|]. intros [[] k]; reflexivity.
Qed.
Theorem C68_header_mismatch_refuted : exists dt v, elem_ok dt v /\ dec (header_dtype true (header_dtype false dt)) (enc dt v) <> v.
Proof. exists [(Big, 2%nat)], [258]. split; [constructor; [cbn; lia|constructor]|vm_compute; discriminate]. Qed.

(** *** Text *)
Lemma text_descr_ok dim : descr_ok (text_descr dim). Proof. split; [destruct dim; cbn; lia|]. split; [discriminate|repeat constructor]. Qed.
Lemma concat_single l : concat (map (fun c : Z => [c]) l) = l. Proof. induction l as [|c l IH]; [reflexivity|]. cbn [map concat app]. now rewrite IH. Qed.
Lemma text_elems t : Forall (fun c => 0 < c < 128) (chars t) -> s1_elems t = Ret (map (fun c => [c]) (chars t)).
Proof.
  intro H. destruct t as [l|l]; [|reflexivity]. cbn [s1_elems chars] in *. replace (forallb (fun c => c <? 128) l) with true; [reflexivity|]. symmetry. apply forallb_forall. intros c Hc. rewrite Forall_forall in H. apply Z.ltb_lt. specialize (H c Hc). lia.
Qed.
Lemma join_ok l : Forall (fun c => 0 < c < 128) l -> concat (map s1_item (map (fun c => [c]) l)) = l /\ forallb (fun c => c <? 128) l = true.
Proof.
  induction 1 as [|c l H _ [I1 I2]]; [split; reflexivity|]. cbn [map concat forallb]. rewrite I1, I2. split; [|apply andb_true_iff; split; [apply Z.ltb_lt; lia|reflexivity]]. unfold s1_item. destruct c; [lia|reflexivity|lia].
Qed.
(** ASCII text arrives as a str, whether sent as str or bytes, in items of fixed and of
    variable length, as immediate value or not.  The one exception is F12: text of
    length 0 in an item of that fixed length. *)
Theorem C68_text np hab id dim t : Forall (fun c => 0 < c < 128) (chars t) -> (match dim with Some n => n = zlen (chars t) /\ 0 < n | None => True end) ->
  to_buffer_text np dim t = Ret (chars t) /\ set_from_raw_text dim (arrived hab id (text_descr dim) (chars t)) = Ret (Str (chars t)).
Proof.
  intros H Dm. unfold to_buffer_text, set_from_raw_text. rewrite text_elems by assumption. cbn [bind]. replace (text_len t) with (zlen (chars t)) by now destruct t. destruct (join_ok _ H) as [J1 J2].
  destruct (chars t) as [|c l] eqn:E.
  - destruct dim as [n|]; [unfold zlen in Dm; cbn in Dm; lia|]. split; [reflexivity|]. cbn. reflexivity.
  - rewrite <- E in *. assert (L : 0 < zlen (chars t)) by (rewrite E; unfold zlen; cbn [length]; lia). destruct (numpy_item np (text_descr dim) [zlen (chars t)] (map (fun c => [c]) (chars t)) hab id) as [H1 H2].
    + apply text_descr_ok.
    + split; [destruct dim; reflexivity|]. split; [cbn [text_descr ds_shape]; constructor; [destruct dim; [symmetry; apply Dm|exact Logic.I]|constructor]|]. split; [unfold zlen, product; rewrite map_length; cbn [fold_right]; lia|]. apply Forall_forall. intros e He. apply in_map_iff in He as (x & <- & Hx). rewrite Forall_forall in H. specialize (H x Hx). split; [repeat constructor; unfold byte_ok; lia|reflexivity].
    + repeat constructor. exact L.
    + rewrite concat_single in H1, H2. rewrite H1, H2. split; [reflexivity|]. cbn [bind]. cbv zeta. rewrite J1, J2. reflexivity.
Qed.
(** Text that is not ASCII is refused by the sender, *)
Theorem C68_text_refused np dim l c : In c l -> 128 <= c -> to_buffer_text np dim (Str l) = Raise ValueError.
Proof. intros I L. unfold to_buffer_text, s1_elems. replace (forallb (fun c => c <? 128) l) with false; [reflexivity|]. symmetry. apply not_true_is_false. intro F. rewrite forallb_forall in F. specialize (F c I). apply Z.ltb_lt in F. lia. Qed.
(** but not bytes that are not ASCII: the receiver raises. *)
Theorem C68_bytes_refuted : exists l, bytes_ok l /\ to_buffer_text Numpy2 None (Bytes l) = Ret l /\ set_from_raw_text None (arrived 48 5000 (text_descr None) l) = Raise ValueError.
Proof. exists [65; 255]. split; [repeat constructor; cbv; intuition congruence|]. split; vm_compute; reflexivity. Qed.
(** Zeros are lost, because numpy strips them from the end of byte strings. *)
Theorem C68_nul_refuted : exists l m, Forall (fun c => 0 <= c < 128) l /\ to_buffer_text Numpy2 (Some (zlen l)) (Str l) = Ret l /\ set_from_raw_text (Some (zlen l)) (arrived 48 5000 (text_descr (Some (zlen l))) l) = Ret (Str m) /\ zlen m < zlen l.
Proof. exists [65; 0; 66], [65; 66]. split; [repeat constructor; lia|]. split; [vm_compute; reflexivity|]. split; vm_compute; reflexivity. Qed.

(** *** Examples *)
Definition ex_nd : ndescr := {| nd_shape := [Some 2; None]; nd_typ := NDtype [(Little, 2%nat); (NA, 1%nat)] OF |}.
Definition ex_arr : arr (list Z) := {| a_shape := [2%nat; 3%nat]; a_get := fun idx => match idx with [i; j] => [Z.of_nat (300 * (i + 1) + j); Z.of_nat j] | _ => [] end |}.
Example C68_ex : ndescr_ok ex_nd /\ array_ok ex_nd ex_arr.
Proof.
  split; [split; [split; [cbn; lia|reflexivity]|reflexivity]|]. split; [repeat constructor|]. split; [repeat constructor|]. intros idx I. inversion I as [|i n idx1 r L1 I1]; subst. inversion I1 as [|j n idx2 r L2 I2]; subst. inversion I2; subst. cbn [ex_arr a_get internal_dtype ex_nd nd_typ]. repeat constructor; cbn [snd]; change (256 ^ Z.of_nat 2) with 65536; change (256 ^ Z.of_nat 1) with 256; lia.
Qed.
Example C68_bytes_ex : to_buffer_nd Numpy2 ex_nd ex_arr = Ret [44; 1; 0; 88; 2; 0; 45; 1; 1; 89; 2; 1; 46; 1; 2; 90; 2; 2].
Proof. vm_compute. reflexivity. Qed.
Example C68_received_ex : match set_from_raw_nd ex_nd ToBig (arrived 48 5000 (to_descr ex_nd) [44; 1; 0; 88; 2; 0; 45; 1; 1; 89; 2; 1; 46; 1; 2; 90; 2; 2]) with Ret (dt, a) => dt = [(Big, 2%nat); (NA, 1%nat)] /\ a_shape a = [2%nat; 3%nat] /\ a_get a [1%nat; 2%nat] = [2; 90; 2] | _ => False end.
Proof. vm_compute. repeat split. Qed.
Definition ex_fmt : ndescr := {| nd_shape := [Some 2]; nd_typ := NFmt [(CU, 16); (CB, 8)] |}.
Definition ex_farr : arr (list Z) := {| a_shape := [2%nat]; a_get := fun idx => match idx with [i] => [Z.of_nat (300 * (i + 1)); Z.of_nat i] | _ => [] end |}.
Example C68_format_ex : ndescr_ok ex_fmt /\ array_ok ex_fmt ex_farr /\ to_buffer_nd Numpy2 ex_fmt ex_farr = Ret [1; 44; 0; 2; 88; 1].
Proof.
  split; [split; [split; [|split; [discriminate|repeat constructor]]|reflexivity]; cbn; lia|]. split; [|vm_compute; reflexivity]. split; [repeat constructor|]. split; [repeat constructor|]. intros idx I. inversion I as [|i n idx1 r L1 I1]; subst. inversion I1; subst. cbn [ex_farr a_get internal_dtype ex_fmt nd_typ map field_dtype fst snd]. repeat constructor; cbn [snd]; change (256 ^ Z.of_nat (Z.to_nat (16 / 8))) with 65536; change (256 ^ Z.of_nat 1) with 256; lia.
Qed.
Example C68_text_ex : set_from_raw_text (Some 5) (arrived 48 5000 (text_descr (Some 5)) [104; 101; 108; 108; 111]) = Ret (Str [104; 101; 108; 108; 111]).
Proof. vm_compute. reflexivity. Qed.
Example C68_shape_ex : ~ fits (nd_shape ex_nd) (map Z.of_nat [3%nat; 2%nat]). Proof. intro F. inversion F as [|? ? ? ? H _]; subst. cbn in H. lia. Qed.

Print Assumptions C68_array.
Print Assumptions C68_layout.
Print Assumptions C68_format.
Print Assumptions C68_shape.
Print Assumptions C68_header.
Print Assumptions C68_header_mismatch_refuted.
Print Assumptions C68_text.
Print Assumptions C68_text_refused.
Print Assumptions C68_bytes_refuted.
Print Assumptions C68_nul_refuted.
