(** Byte strings, big-endian integers and list lemmas.  No spead2 content. *)
From Coq Require Import ZArith List Lia Bool.
From Coq Require Import ZifyBool ZifyNat.
Import ListNotations.
Open Scope Z_scope.

#[global] Arguments Z.add : simpl never.
#[global] Arguments Z.sub : simpl never.
#[global] Arguments Z.mul : simpl never.
#[global] Arguments Z.opp : simpl never.
#[global] Arguments Z.pow : simpl never.
#[global] Arguments Z.div : simpl never.
#[global] Arguments Z.modulo : simpl never.
#[global] Arguments Z.of_nat : simpl never.
#[global] Arguments Z.to_nat : simpl never.
#[global] Arguments Z.land : simpl never.
#[global] Arguments Z.lor : simpl never.
#[global] Arguments Z.shiftl : simpl never.
#[global] Arguments Z.shiftr : simpl never.
#[global] Arguments Z.testbit : simpl never.
#[global] Arguments Z.min : simpl never.
#[global] Arguments Z.max : simpl never.

Definition byte_ok (b : Z) : Prop := 0 <= b < 256.
Definition bytes_ok (l : list Z) : Prop := Forall byte_ok l.

(** Length as an integer. *)
Definition zlen {A} (l : list A) : Z := Z.of_nat (length l).

(** [slice l off len]: the [len] elements starting at [off]. *)
Definition slice {A} (l : list A) (off len : Z) : list A :=
  firstn (Z.to_nat len) (skipn (Z.to_nat off) l).

(** Big-endian encoding of the low [n] bytes of [v]. *)
Fixpoint be_encode (n : nat) (v : Z) : list Z :=
  match n with
  | O => []
  | S n' => be_encode n' (v / 256) ++ [v mod 256]
  end.

(** Big-endian value of a byte string. *)
Definition be_decode (l : list Z) : Z := fold_left (fun a b => a * 256 + b) l 0.

Lemma zlen_nonneg {A} (l : list A) : 0 <= zlen l.
Proof. unfold zlen; lia. Qed.

Lemma zlen_app {A} (l1 l2 : list A) : zlen (l1 ++ l2) = zlen l1 + zlen l2.
Proof. unfold zlen; rewrite app_length; lia. Qed.

Lemma zlen_cons {A} (x : A) l : zlen (x :: l) = 1 + zlen l.
Proof. unfold zlen; simpl length; lia. Qed.

Lemma zlen_nil {A} : zlen (@nil A) = 0.
Proof. reflexivity. Qed.

Lemma zlen_repeat {A} (x : A) n : zlen (repeat x n) = Z.of_nat n.
Proof. unfold zlen; now rewrite repeat_length. Qed.

Lemma zlen_map {A B} (f : A -> B) l : zlen (map f l) = zlen l.
Proof. unfold zlen; now rewrite map_length. Qed.

Lemma zlen_slice {A} (l : list A) off len :
  0 <= off -> 0 <= len -> off + len <= zlen l -> zlen (slice l off len) = len.
Proof.
  unfold zlen, slice; intros H1 H2 H3.
  rewrite firstn_length, skipn_length; lia.
Qed.

Lemma zlen_slice_le {A} (l : list A) off len : 0 <= len -> zlen (slice l off len) <= len.
Proof. unfold zlen, slice; intros; rewrite firstn_length; lia. Qed.

Lemma slice_0_all {A} (l : list A) n : zlen l <= n -> slice l 0 n = l.
Proof. unfold slice, zlen; intros; simpl. apply firstn_all2; lia. Qed.

Lemma slice_zero {A} (l : list A) off : slice l off 0 = [].
Proof. reflexivity. Qed.

Lemma slice_app_l {A} (l1 l2 : list A) off len :
  0 <= off -> 0 <= len -> off + len <= zlen l1 -> slice (l1 ++ l2) off len = slice l1 off len.
Proof.
  unfold slice, zlen; intros.
  rewrite skipn_app, firstn_app, skipn_length.
  replace (Z.to_nat len - (length l1 - Z.to_nat off))%nat with 0%nat by lia.
  simpl. now rewrite app_nil_r.
Qed.

Lemma slice_app_r {A} (l1 l2 : list A) off len :
  zlen l1 <= off -> 0 <= len -> slice (l1 ++ l2) off len = slice l2 (off - zlen l1) len.
Proof.
  unfold slice, zlen; intros.
  rewrite skipn_app, skipn_all2 by lia. simpl.
  do 2 f_equal. lia.
Qed.

Lemma skipn_skipn' {A} (x y : nat) (l : list A) : skipn x (skipn y l) = skipn (y + x) l.
Proof.
  revert l; induction y as [|y IH]; intro l; [reflexivity|].
  destruct l; simpl; [now rewrite skipn_nil|apply IH].
Qed.

Lemma firstn_plus {A} (x y : nat) (l : list A) :
  firstn (x + y) l = firstn x l ++ firstn y (skipn x l).
Proof.
  revert l; induction x as [|x IH]; intro l; [reflexivity|].
  destruct l; simpl; [now rewrite firstn_nil|]. now rewrite IH.
Qed.

Lemma slice_split {A} (l : list A) off a b :
  0 <= off -> 0 <= a -> 0 <= b ->
  slice l off (a + b) = slice l off a ++ slice l (off + a) b.
Proof.
  unfold slice; intros.
  rewrite (Z2Nat.inj_add a b) by lia.
  rewrite (Z2Nat.inj_add off a) by lia.
  now rewrite firstn_plus, skipn_skipn'.
Qed.

Lemma slice_slice {A} (l : list A) o1 n1 o2 n2 :
  0 <= o1 -> 0 <= o2 -> 0 <= n2 -> o2 + n2 <= n1 ->
  slice (slice l o1 n1) o2 n2 = slice l (o1 + o2) n2.
Proof.
  unfold slice; intros.
  rewrite skipn_firstn_comm, firstn_firstn, skipn_skipn'.
  f_equal; [lia|f_equal; lia].
Qed.

Lemma slice_full {A} (l : list A) : slice l 0 (zlen l) = l.
Proof. apply slice_0_all; lia. Qed.

Lemma slice_app_exact {A} (l1 l2 l3 : list A) :
  slice (l1 ++ l2 ++ l3) (zlen l1) (zlen l2) = l2.
Proof.
  rewrite slice_app_r by (try apply zlen_nonneg; lia).
  rewrite Z.sub_diag, slice_app_l by (pose proof (zlen_nonneg l2); lia).
  apply slice_full.
Qed.

Lemma bytes_ok_app l1 l2 : bytes_ok (l1 ++ l2) <-> bytes_ok l1 /\ bytes_ok l2.
Proof. apply Forall_app. Qed.


Lemma In_firstn {A} (x : A) n l : In x (firstn n l) -> In x l.
Proof.
  revert n; induction l as [|y l IH]; intros [|n]; simpl; try tauto.
  intros [->|H]; [now left|right; eauto].
Qed.

Lemma In_skipn {A} (x : A) n l : In x (skipn n l) -> In x l.
Proof.
  revert n; induction l as [|y l IH]; intros [|n]; simpl; try tauto.
  intro H; right; eauto.
Qed.

Lemma In_slice {A} (x : A) l o n : In x (slice l o n) -> In x l.
Proof. intro H. eapply In_skipn, In_firstn, H. Qed.












Lemma bytes_ok_slice l o n : bytes_ok l -> bytes_ok (slice l o n).
Proof.
  unfold bytes_ok; rewrite !Forall_forall; intros H x Hx. apply H.
  eapply In_slice, Hx.
Qed.

(** ** Big-endian integers *)

Lemma be_encode_length n v : length (be_encode n v) = n.
Proof.
  revert v; induction n as [|n IH]; intro v; simpl; [reflexivity|].
  rewrite app_length, IH; simpl; lia.
Qed.

Lemma zlen_be_encode n v : zlen (be_encode n v) = Z.of_nat n.
Proof. unfold zlen; now rewrite be_encode_length. Qed.

Lemma be_encode_ok n v : bytes_ok (be_encode n v).
Proof.
  revert v; induction n as [|n IH]; intro v; simpl; [constructor|].
  apply bytes_ok_app; split; [apply IH|].
  constructor; [|constructor]. apply Z.mod_pos_bound; lia.
Qed.

Lemma be_decode_snoc l b : be_decode (l ++ [b]) = be_decode l * 256 + b.
Proof. unfold be_decode; rewrite fold_left_app; reflexivity. Qed.

Lemma be_decode_app l1 l2 :
  be_decode (l1 ++ l2) = be_decode l1 * 256 ^ zlen l2 + be_decode l2.
Proof.
  induction l2 as [|b l2 IH] using rev_ind.
  - rewrite app_nil_r, zlen_nil. change (be_decode []) with 0. lia.
  - rewrite app_assoc, !be_decode_snoc, IH, zlen_app.
    change (zlen [b]) with 1.
    rewrite Z.pow_add_r by (try apply zlen_nonneg; lia). change (256 ^ 1) with 256. ring.
Qed.

Lemma be_decode_bound l : bytes_ok l -> 0 <= be_decode l < 256 ^ zlen l.
Proof.
  induction l as [|b l IH] using rev_ind; intro H.
  - change (256 ^ zlen (@nil Z)) with 1; unfold be_decode; simpl; lia.
  - apply bytes_ok_app in H; destruct H as [H1 H2].
    inversion H2 as [|? ? Hb ?]; subst. unfold byte_ok in Hb.
    specialize (IH H1). rewrite be_decode_snoc, zlen_app.
    change (zlen [b]) with 1.
    rewrite Z.pow_add_r by (try apply zlen_nonneg; lia). change (256^1) with 256. nia.
Qed.

Lemma be_decode_encode n v : be_decode (be_encode n v) = v mod 256 ^ Z.of_nat n.
Proof.
  revert v; induction n as [|n IH]; intro v.
  - unfold be_decode; simpl. now rewrite Z.mod_1_r.
  - simpl be_encode. rewrite be_decode_snoc, IH.
    rewrite Nat2Z.inj_succ, Z.pow_succ_r by lia.
    rewrite (Z.rem_mul_r v 256 (256 ^ Z.of_nat n)) by (try apply Z.pow_pos_nonneg; lia).
    ring.
Qed.

Lemma be_decode_encode_small n v :
  0 <= v < 256 ^ Z.of_nat n -> be_decode (be_encode n v) = v.
Proof. intro H. rewrite be_decode_encode. apply Z.mod_small, H. Qed.

Lemma be_encode_decode l : bytes_ok l -> be_encode (length l) (be_decode l) = l.
Proof.
  induction l as [|b l IH] using rev_ind; intro H; [reflexivity|].
  apply bytes_ok_app in H; destruct H as [H1 H2].
  inversion H2 as [|? ? Hb ?]; subst. unfold byte_ok in Hb.
  rewrite app_length; simpl length. rewrite Nat.add_1_r. simpl be_encode.
  rewrite be_decode_snoc.
  replace ((be_decode l * 256 + b) / 256) with (be_decode l).
  - replace ((be_decode l * 256 + b) mod 256) with b; [now rewrite IH|].
    rewrite Z.add_comm, Z.mod_add by lia. symmetry; apply Z.mod_small; lia.
  - rewrite Z.add_comm, Z.div_add by lia. rewrite (Z.div_small b) by lia. lia.
Qed.

Lemma be_decode_inj l1 l2 :
  bytes_ok l1 -> bytes_ok l2 -> length l1 = length l2 -> be_decode l1 = be_decode l2 -> l1 = l2.
Proof.
  intros H1 H2 HL HE.
  rewrite <- (be_encode_decode l1 H1), <- (be_encode_decode l2 H2). congruence.
Qed.

Lemma nth_error_firstn_lt {A} (l : list A) n i : (i < n)%nat -> nth_error (firstn n l) i = nth_error l i.
Proof.
  revert n i. induction l as [|x l IH]; intros n i H; destruct n; try lia; [now destruct i|].
  destruct i; [reflexivity|]. cbn [firstn nth_error]. apply IH. lia.
Qed.
Lemma nth_error_skipn' {A} (l : list A) n i : nth_error (skipn n l) i = nth_error l (n + i).
Proof.
  revert n. induction l as [|x l IH]; intro n; destruct n; try reflexivity.
  - destruct i; reflexivity.
  - cbn [skipn Nat.add nth_error]. apply IH.
Qed.
