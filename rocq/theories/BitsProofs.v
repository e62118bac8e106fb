(** Lemmas on the bit generators. *)
From Coq Require Import ZArith List Bool Lia.
From Verif Require Import Base BitsModel BitsSpec.
Import ListNotations.
Open Scope Z_scope.

Lemma shl1 n : Z.shiftl 1 n = 2 ^ n \/ n < 0. Proof. destruct (Z_lt_le_dec n 0); [now right|left]. rewrite Z.shiftl_mul_pow2 by lia. lia. Qed.
Lemma shl1' n : 0 <= n -> Z.shiftl 1 n = 2 ^ n. Proof. intro. rewrite Z.shiftl_mul_pow2 by lia. lia. Qed.
Lemma land_mask a n : 0 <= n -> Z.land a (Z.shiftl 1 n - 1) = a mod 2 ^ n.
Proof. intro H. rewrite shl1' by assumption. replace (2 ^ n - 1) with (Z.ones n) by (rewrite Z.ones_equiv; lia). now apply Z.land_ones. Qed.
Lemma lor_add a b n : 0 <= n -> 0 <= b < 2 ^ n -> Z.lor (Z.shiftl a n) b = a * 2 ^ n + b.
Proof.
  intros N B. rewrite Z.shiftl_mul_pow2 by lia. symmetry. rewrite <- Z.lxor_lor; [rewrite <- Z.add_nocarry_lxor|]; auto; apply Z.bits_inj'; intros i I; rewrite Z.land_spec, Z.bits_0;
    (destruct (Z_lt_le_dec i n); [rewrite Z.mul_pow2_bits_low by lia; reflexivity|]); (replace (Z.testbit b i) with false; [now rewrite andb_false_r|]);
    symmetry; (destruct (Z.eq_dec b 0) as [->|]; [apply Z.bits_0|]); apply Z.bits_above_log2; try lia; apply Z.log2_lt_pow2; try lia; apply Z.lt_le_trans with (2 ^ n); try lia; apply Z.pow_le_mono_r; lia.
Qed.
Lemma pow2_split a b : 0 <= a -> 0 <= b -> 2 ^ (a + b) = 2 ^ a * 2 ^ b. Proof. intros. now apply Z.pow_add_r. Qed.
Lemma pow256 n : 0 <= n -> 256 ^ n = 2 ^ (8 * n). Proof. intro. rewrite Z.pow_mul_r by lia. reflexivity. Qed.

(** *** Writing *)
Definition num (g : wst) : Z := be_decode (firstn (w_pos g) (w_arr g)) * 2 ^ w_bits g + w_cur g.
Definition tot (g : wst) : Z := 8 * Z.of_nat (w_pos g) + w_bits g.
Record wok (g : wst) : Prop := { wo_b : 0 <= w_bits g; wo_c : 0 <= w_cur g < 2 ^ w_bits g; wo_p : bytes_ok (firstn (w_pos g) (w_arr g)); wo_l : (w_pos g <= length (w_arr g))%nat }.

Lemma store8_ok arr pos v : (pos < length arr)%nat -> 0 <= v < 256 -> exists arr', store8 arr pos v = Ret arr' /\ length arr' = length arr /\ firstn (S pos) arr' = firstn pos arr ++ [v] /\ skipn (S pos) arr' = skipn (S pos) arr.
Proof.
  intros P V. unfold store8. destruct (Nat.ltb_spec pos (length arr)); [|lia]. replace ((0 <=? v) && (v <? 256)) with true by (symmetry; apply andb_true_intro; split; [apply Z.leb_le|apply Z.ltb_lt]; lia).
  eexists. split; [reflexivity|]. assert (L : length (firstn pos arr) = pos) by (apply firstn_length_le; lia). split; [|split].
  - rewrite app_length. cbn [length]. rewrite skipn_length, L. lia.
  - rewrite firstn_app, firstn_all2 by lia. rewrite L. replace (S pos - pos)%nat with 1%nat by lia. reflexivity.
  - rewrite skipn_app, skipn_all2 by lia. rewrite L. replace (S pos - pos)%nat with 1%nat by lia. reflexivity.
Qed.

Lemma drain_ok fuel : forall g, wok g -> (Z.to_nat (w_bits g) <= fuel)%nat -> tot g <= 8 * zlen (w_arr g) ->
  exists g', w_drain fuel g = Ret g' /\ wok g' /\ w_bits g' < 8 /\ num g' = num g /\ tot g' = tot g /\ length (w_arr g') = length (w_arr g) /\ skipn (w_pos g') (w_arr g') = skipn (w_pos g') (w_arr g).
Proof.
  induction fuel as [|f IH]; intros g [B C P L] F T; cbn [w_drain].
  - destruct (Z.leb_spec 8 (w_bits g)); [lia|]. exists g. repeat split; auto; lia.
  - destruct (Z.leb_spec 8 (w_bits g)) as [G|G]; [|exists g; repeat split; auto; lia].
    unfold tot, zlen in T. assert (Hp : 2 ^ w_bits g = 2 ^ (w_bits g - 8) * 256) by (replace (w_bits g) with (w_bits g - 8 + 8) at 1 by lia; rewrite pow2_split by lia; reflexivity).
    assert (Pp : 0 < 2 ^ (w_bits g - 8)) by (apply Z.pow_pos_nonneg; lia). rewrite Z.shiftr_div_pow2 by lia. rewrite land_mask by lia.
    assert (V : 0 <= w_cur g / 2 ^ (w_bits g - 8) < 256) by (split; [apply Z.div_pos; lia|apply Z.div_lt_upper_bound; lia]).
    destruct (store8_ok (w_arr g) (w_pos g) _ ltac:(lia) V) as (arr' & -> & A1 & A2 & A3). cbn [bind].
    destruct (IH {| w_arr := arr'; w_pos := S (w_pos g); w_cur := w_cur g mod 2 ^ (w_bits g - 8); w_bits := w_bits g - 8 |}) as (g' & E & W & Bd & N & T' & Ln & Sk).
    + constructor; cbn [w_arr w_pos w_cur w_bits]; [lia|apply Z.mod_pos_bound; lia|rewrite A2; apply bytes_ok_app; split; [exact P|repeat constructor; lia]|lia].
    + cbn [w_bits]. lia.
    + unfold tot, zlen. cbn [w_arr w_pos w_bits]. rewrite A1. lia.
    + cbn [w_arr] in *. exists g'. split; [exact E|]. split; [exact W|]. split; [exact Bd|]. split; [|split; [|split]].
      * rewrite N. unfold num. cbn [w_arr w_pos w_cur w_bits]. rewrite A2, be_decode_snoc, Hp. pose proof (Z.div_mod (w_cur g) (2 ^ (w_bits g - 8)) ltac:(lia)). nia.
      * rewrite T'. unfold tot. cbn [w_pos w_bits]. lia.
      * congruence.
      * rewrite Sk. destruct W as [W1 _ _ _]. unfold tot in T'. cbn [w_pos w_bits] in T'. assert (Hg : exists k, w_pos g' = (S (w_pos g) + k)%nat) by (exists (w_pos g' - S (w_pos g))%nat; lia). destruct Hg as (k & ->).
        rewrite <- !skipn_skipn'. now rewrite A3.
Qed.
Lemma send_ok g v n : wok g -> w_bits g < 8 -> 0 <= n -> 0 <= v < 2 ^ n -> tot g + n <= 8 * zlen (w_arr g) ->
  exists g', w_send g v n = Ret g' /\ wok g' /\ w_bits g' < 8 /\ num g' = num g * 2 ^ n + v /\ tot g' = tot g + n /\ length (w_arr g') = length (w_arr g) /\ skipn (w_pos g') (w_arr g') = skipn (w_pos g') (w_arr g).
Proof.
  intros [B C P L] Bd N V T. unfold w_send. destruct (Z.ltb_spec v 0); [lia|]. rewrite shl1' by lia. destruct (Z.leb_spec (2 ^ n) v); [lia|]. cbn [orb]. rewrite lor_add by lia.
  destruct (drain_ok (Z.to_nat (w_bits g + n)) {| w_arr := w_arr g; w_pos := w_pos g; w_cur := w_cur g * 2 ^ n + v; w_bits := w_bits g + n |}) as (g' & E & W & Bd' & Nm & Tt & Ln & Sk).
  - constructor; cbn [w_arr w_pos w_cur w_bits]; auto; [lia|]. rewrite pow2_split by lia. nia.
  - cbn [w_bits]. lia.
  - unfold tot in *. cbn [w_arr w_pos w_bits]. lia.
  - exists g'. split; [exact E|]. split; [exact W|]. split; [exact Bd'|]. split; [|split; [|split; assumption]].
    + rewrite Nm. unfold num. cbn [w_arr w_pos w_cur w_bits]. rewrite pow2_split by lia. ring.
    + rewrite Tt. unfold tot. cbn [w_pos w_bits]. lia.
Qed.
(** The number made of a list of bit fields *)
Definition number (l : list (Z * Z)) : Z := fold_left (fun a x => a * 2 ^ snd x + fst x) l 0.
Definition wd (l : list (Z * Z)) : Z := fold_right (fun x n => snd x + n) 0 l.
Definition bits_okl (l : list (Z * Z)) : Prop := Forall (fun x => 0 <= snd x /\ 0 <= fst x < 2 ^ snd x) l.
Lemma wd_app a b : wd (a ++ b) = wd a + wd b. Proof. unfold wd. induction a as [|x a IH]; cbn [app fold_right]; lia. Qed.
Lemma wd_nonneg l : bits_okl l -> 0 <= wd l. Proof. unfold wd. induction 1 as [|x l [H _] _ IH]; cbn [fold_right]; lia. Qed.
Lemma number_snoc l x : number (l ++ [x]) = number l * 2 ^ snd x + fst x. Proof. unfold number. rewrite fold_left_app. reflexivity. Qed.
Lemma wd_snoc l x : wd (l ++ [x]) = wd l + snd x. Proof. rewrite wd_app. unfold wd. cbn [fold_right]. lia. Qed.
Lemma wd_cons l x : wd (x :: l) = snd x + wd l. Proof. reflexivity. Qed.
Lemma number_app a b : bits_okl b -> number (a ++ b) = number a * 2 ^ wd b + number b.
Proof.
  revert a. induction b as [|x b IH] using rev_ind; intros a F; [rewrite app_nil_r; cbn; lia|]. apply Forall_app in F as [F1 F2]. inversion_clear F2 as [|? ? [X1 X2] _]. rewrite app_assoc, !number_snoc, wd_snoc, IH by assumption.
  rewrite pow2_split by (try assumption; now apply wd_nonneg). ring.
Qed.
Lemma number_cons v n l : bits_okl l -> number ((v, n) :: l) = v * 2 ^ wd l + number l.
Proof. intro F. change ((v, n) :: l) with ([(v, n)] ++ l). rewrite number_app by assumption. reflexivity. Qed.
Lemma number_bound l : bits_okl l -> 0 <= number l < 2 ^ wd l.
Proof.
  induction l as [|x l IH] using rev_ind; intro F; [cbn; lia|]. apply Forall_app in F as [F1 F2]. specialize (IH F1). rewrite number_snoc, wd_snoc. inversion_clear F2 as [|? ? [X1 X2] _]. rewrite pow2_split by (try apply wd_nonneg; auto). nia.
Qed.
Fixpoint w_sends (l : list (Z * Z)) (g : wst) : res wst := match l with [] => Ret g | (v, n) :: r => bind (w_send g v n) (w_sends r) end.
Lemma sends_app a b g : w_sends (a ++ b) g = bind (w_sends a g) (w_sends b).
Proof. revert g. induction a as [|[v n] a IH]; intro g; cbn; [reflexivity|]. destruct (w_send g v n); cbn; auto. Qed.
Lemma sends_ok l : forall g, wok g -> w_bits g < 8 -> bits_okl l -> tot g + wd l <= 8 * zlen (w_arr g) ->
  exists g', w_sends l g = Ret g' /\ wok g' /\ w_bits g' < 8 /\ num g' = num g * 2 ^ wd l + number l /\ tot g' = tot g + wd l /\ length (w_arr g') = length (w_arr g) /\ skipn (w_pos g') (w_arr g') = skipn (w_pos g') (w_arr g).
Proof.
  induction l as [|[v n] l IH]; intros g W B F T; cbn [w_sends].
  - exists g. cbn. repeat split; auto; try lia; apply W.
  - inversion_clear F as [|? ? [N V] F']. cbn [fst snd] in N, V. pose proof (wd_nonneg l F') as Wn. unfold wd in T. cbn [fold_right snd] in T. fold (wd l) in T. destruct (send_ok g v n W B N V ltac:(lia)) as (g1 & -> & W1 & B1 & N1 & T1 & L1 & S1). cbn [bind].
    destruct (IH g1 W1 B1 F') as (g2 & -> & W2 & B2 & N2 & T2 & L2 & S2); [unfold zlen in *; rewrite L1; lia|]. exists g2. split; [reflexivity|]. split; [exact W2|]. split; [exact B2|]. split; [|split; [|split]].
    + rewrite N2, N1, number_cons, wd_cons by assumption. cbn [snd]. rewrite pow2_split by lia. ring.
    + rewrite T2, T1, wd_cons. cbn [snd]. lia.
    + congruence.
    + rewrite S2. pose proof (wo_b _ W1) as Wb1. pose proof (wo_b _ W2) as Wb2. unfold tot in T2. assert (Hg : exists k, w_pos g2 = (w_pos g1 + k)%nat) by (exists (w_pos g2 - w_pos g1)%nat; lia). destruct Hg as (k & ->). rewrite <- !skipn_skipn'. now rewrite S1.
Qed.
(** Closing: the bits, then zeros *)
Lemma write_ok l n : bits_okl l -> n = (wd l + 7) / 8 ->
  exists out, bind (w_sends l (w_init (repeat 0 (Z.to_nat n)))) w_close = Ret out /\ zlen out = n /\ bytes_ok out /\ be_decode out = number l * 2 ^ (8 * n - wd l).
Proof.
  intros F ->. pose proof (wd_nonneg l F) as W0. pose proof (Z.div_mod (wd l + 7) 8 ltac:(lia)) as D. pose proof (Z.mod_pos_bound (wd l + 7) 8 ltac:(lia)) as M. set (n := (wd l + 7) / 8) in *.
  set (arr := repeat 0 (Z.to_nat n)). assert (La : zlen arr = n) by (unfold arr, zlen; rewrite repeat_length; lia).
  destruct (sends_ok l (w_init arr)) as (g & -> & [Wb Wc Wp Wl] & Bd & Nm & Tt & Ln & _); auto.
  { constructor; cbn; try lia. constructor. } { cbn. lia. } { unfold tot. cbn [w_init w_pos w_bits w_arr]. rewrite La. lia. }
  unfold num, tot in *. cbn [w_init w_pos w_bits w_arr w_cur firstn] in *. change (be_decode []) with 0 in Nm. cbn [bind]. unfold w_close. unfold zlen in La. destruct (Z.ltb_spec 0 (w_bits g)) as [P|P].
  - rewrite Z.shiftl_mul_pow2 by lia. assert (Hp : 2 ^ w_bits g * 2 ^ (8 - w_bits g) = 256) by (rewrite <- pow2_split by lia; replace (w_bits g + (8 - w_bits g)) with 8 by lia; reflexivity).
    assert (Pp : 0 < 2 ^ (8 - w_bits g)) by (apply Z.pow_pos_nonneg; lia). destruct (store8_ok (w_arr g) (w_pos g) (w_cur g * 2 ^ (8 - w_bits g)) ltac:(lia) ltac:(nia)) as (out & -> & A1 & A2 & A3).
    assert (E : out = firstn (w_pos g) (w_arr g) ++ [w_cur g * 2 ^ (8 - w_bits g)]) by (rewrite <- A2; symmetry; apply firstn_all2; lia). exists out. split; [reflexivity|]. split; [unfold zlen; lia|]. split; [rewrite E; apply bytes_ok_app; split; [exact Wp|repeat constructor; nia]|].
    rewrite E, be_decode_snoc. replace (8 * n - wd l) with (8 - w_bits g) by lia. replace (number l) with (be_decode (firstn (w_pos g) (w_arr g)) * 2 ^ w_bits g + w_cur g) by lia. rewrite <- Hp. ring.
  - assert (w_bits g = 0) as Z0 by lia. rewrite Z0 in *. exists (w_arr g). split; [reflexivity|]. split; [unfold zlen; lia|]. assert (E : firstn (w_pos g) (w_arr g) = w_arr g) by (apply firstn_all2; lia). rewrite E in *. split; [exact Wp|].
    replace (8 * n - wd l) with 0 by lia. change (2 ^ 0) with 1 in *. lia.
Qed.

(** *** Reading *)
Definition rok (raw : list Z) (off : Z) (g : rdst) : Prop := exists c, (c <= length raw)%nat /\ d_src g = skipn c raw /\ 0 <= d_have g /\ 8 * Z.of_nat c = off + d_have g /\ d_bits g = be_decode (firstn c raw) mod 2 ^ d_have g.
Lemma init_rok raw : rok raw 0 (d_init raw). Proof. exists 0%nat. cbn. repeat split; lia. Qed.
Lemma firstn_snoc (raw : list Z) c b r : skipn c raw = b :: r -> firstn (S c) raw = firstn c raw ++ [b] /\ skipn (S c) raw = r /\ (c < length raw)%nat.
Proof.
  intro E. assert (L : (c < length raw)%nat) by (destruct (Nat.lt_ge_cases c (length raw)); [assumption|]; rewrite skipn_all2 in E by assumption; discriminate).
  rewrite <- (firstn_skipn c raw) at 1 3. rewrite E. rewrite firstn_app, firstn_all2, firstn_length_le, skipn_app, skipn_all2, firstn_length_le by (rewrite ?firstn_length_le; lia).
  replace (S c - c)%nat with 1%nat by lia. repeat split; auto.
Qed.
Lemma fill_ok raw off need : bytes_ok raw -> forall src g, d_src g = src -> rok raw off g -> 0 <= need -> off + need <= 8 * zlen raw -> exists g', d_fill src (d_have g) (d_bits g) need = Ret g' /\ rok raw off g' /\ need <= d_have g'.
Proof.
  intro Ok. induction src as [|b r IH]; intros g Es R N L; destruct R as (c & C & Sc & H & O & B); cbn [d_fill]; destruct (Z.ltb_spec (d_have g) need) as [Lt|Ge].
  1: { exfalso. rewrite Es in Sc. assert (length (skipn c raw) = 0%nat) as X by (rewrite <- Sc; reflexivity). rewrite skipn_length in X. unfold zlen in L. lia. }
  1, 3: exists {| d_have := d_have g; d_bits := d_bits g; d_src := d_src g |}; rewrite <- Es; split; [reflexivity|]; split; [exists c; cbn; auto|cbn; lia].
  rewrite Es in Sc. destruct (firstn_snoc raw c b r (eq_sym Sc)) as (F & K & C'). assert (Bb : 0 <= b < 256).
  { assert (In b raw) as I by (rewrite <- (firstn_skipn c raw); apply in_or_app; right; rewrite <- Sc; now left). exact (proj1 (Forall_forall _ _) Ok b I). }
  rewrite lor_add by lia. specialize (IH {| d_have := d_have g + 8; d_bits := d_bits g * 2 ^ 8 + b; d_src := r |} eq_refl). cbn [d_have d_bits] in IH. apply IH; auto.
  exists (S c). cbn [d_src d_have d_bits]. split; [lia|]. split; [now rewrite K|]. split; [lia|]. split; [lia|]. rewrite F, be_decode_snoc, B. rewrite pow2_split by lia. change (2 ^ 8) with 256. assert (0 < 2 ^ d_have g) by (apply Z.pow_pos_nonneg; lia).
  set (D := be_decode (firstn c raw)) in *. pose proof (Z.div_mod D (2 ^ d_have g) ltac:(lia)). apply (Z.mod_unique _ _ (D / 2 ^ d_have g)); [|nia]. left. pose proof (Z.mod_pos_bound D (2 ^ d_have g) ltac:(lia)). nia.
Qed.
Lemma bytes_ok_firstn n l : bytes_ok l -> bytes_ok (firstn n l). Proof. intro H. rewrite <- (firstn_skipn n l) in H. now apply bytes_ok_app in H. Qed.
Lemma bits_at_firstn raw off w c : bytes_ok raw -> (c <= length raw)%nat -> 0 <= off -> 0 <= w -> off + w <= 8 * Z.of_nat c -> bits_at raw off w = (be_decode (firstn c raw) / 2 ^ (8 * Z.of_nat c - off - w)) mod 2 ^ w.
Proof.
  intros Ok C O W L. unfold bits_at. f_equal. assert (Lf : length (firstn c raw) = c) by (apply firstn_length_le; lia). assert (E : raw = firstn c raw ++ skipn c raw) by (symmetry; apply firstn_skipn). pose proof Ok as Ok'. rewrite E in Ok'. apply bytes_ok_app in Ok' as [O1 O2].
  rewrite E at 1. rewrite be_decode_app, pow256 by apply zlen_nonneg. pose proof (be_decode_bound _ O2) as Bd. rewrite pow256 in Bd by apply zlen_nonneg.
  assert (Ls : zlen (skipn c raw) = zlen raw - Z.of_nat c) by (unfold zlen; rewrite skipn_length; lia). rewrite Ls in *. assert (0 <= zlen raw - Z.of_nat c) by (unfold zlen; lia).
  replace (8 * zlen raw - off - w) with (8 * (zlen raw - Z.of_nat c) + (8 * Z.of_nat c - off - w)) by lia. rewrite pow2_split by lia. rewrite <- Z.div_div by (try apply Z.pow_nonzero; try apply Z.pow_pos_nonneg; lia). f_equal.
  rewrite Z.div_add_l by (apply Z.pow_nonzero; lia). rewrite (Z.div_small (be_decode (skipn c raw))) by lia. lia.
Qed.
Lemma read_ok raw off w g : bytes_ok raw -> rok raw off g -> 0 <= off -> 0 <= w -> off + w <= 8 * zlen raw -> exists g', d_send g w = Ret (bits_at raw off w, g') /\ rok raw (off + w) g'.
Proof.
  intros Ok R O W L. unfold d_send. destruct (fill_ok raw off w Ok (d_src g) g eq_refl R W L) as (g1 & -> & (c & C & Sc & H & Oc & B) & N). cbn [bind]. rewrite Z.shiftr_div_pow2, land_mask by lia.
  assert (Pw : 0 < 2 ^ w) by (apply Z.pow_pos_nonneg; lia). assert (Ph : 0 < 2 ^ (d_have g1 - w)) by (apply Z.pow_pos_nonneg; lia). assert (Hh : 2 ^ d_have g1 = 2 ^ (d_have g1 - w) * 2 ^ w) by (rewrite <- pow2_split by lia; f_equal; lia).
  eexists. split; [f_equal; f_equal|].
  - rewrite (bits_at_firstn raw off w c) by (assumption || lia). replace (8 * Z.of_nat c - off - w) with (d_have g1 - w) by lia. rewrite B, Hh. set (D := be_decode (firstn c raw)). rewrite Z.rem_mul_r by lia. rewrite Z.mul_comm, Z.div_add by lia. rewrite Z.div_small by (apply Z.mod_pos_bound; lia). lia.
  - exists c. cbn [d_src d_have d_bits]. split; [exact C|]. split; [exact Sc|]. split; [lia|]. split; [lia|]. rewrite B, Hh. symmetry. set (D := be_decode (firstn c raw)). rewrite Z.rem_mul_r by lia. rewrite Z.mul_comm, Z.add_mod, Z.mod_mul, Z.add_0_r, !Z.mod_mod by lia. reflexivity.
Qed.
(** A field of a written number *)
Lemma bits_of_number raw l1 v n l2 pad : bits_okl (l1 ++ (v, n) :: l2) -> be_decode raw = number (l1 ++ (v, n) :: l2) * 2 ^ pad -> 0 <= pad -> 8 * zlen raw = wd (l1 ++ (v, n) :: l2) + pad -> bits_at raw (wd l1) n = v.
Proof.
  intros F E P Z. unfold bits_at. pose proof F as F'. apply Forall_app in F' as [F1 F2]. inversion F2 as [|? ? [N V] F3]; subst. cbn [fst snd] in *. pose proof (wd_nonneg l2 F3) as W2. rewrite Z, E, number_app, number_cons by assumption. rewrite wd_app, wd_cons. cbn [snd].
  replace (wd l1 + (n + wd l2) + pad - wd l1 - n) with (wd l2 + pad) by lia. rewrite !pow2_split by lia. assert (0 < 2 ^ pad) by (apply Z.pow_pos_nonneg; lia). assert (0 < 2 ^ wd l2) by (apply Z.pow_pos_nonneg; lia). rewrite Z.div_mul_cancel_r by lia.
  replace (number l1 * (2 ^ n * 2 ^ wd l2) + (v * 2 ^ wd l2 + number l2)) with ((number l1 * 2 ^ n + v) * 2 ^ wd l2 + number l2) by ring. rewrite Z.div_add_l by lia. rewrite (Z.div_small (number l2)) by (apply number_bound; assumption). rewrite Z.add_0_r, Z.add_comm, Z.mod_add by lia. apply Z.mod_small. lia.
Qed.
