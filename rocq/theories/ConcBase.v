(** Lists of threads / slots: update and weighted counts (no spead2 content). *)
From Coq Require Import List Arith Lia.
Import ListNotations.

Fixpoint upd {A} (l : list A) (n : nat) (x : A) : list A :=
  match l, n with
  | [], _ => []
  | _ :: l', O => x :: l'
  | y :: l', S n' => y :: upd l' n' x
  end.

Lemma upd_length {A} (l : list A) n x : length (upd l n x) = length l.
Proof. revert n; induction l as [|y l IH]; intros [|n]; cbn [upd length]; auto. Qed.
Lemma upd_same {A} (l : list A) n x : n < length l -> nth_error (upd l n x) n = Some x.
Proof. revert n; induction l as [|y l IH]; intros [|n] H; cbn [upd length nth_error] in *; try lia; auto. apply IH. lia. Qed.
Lemma upd_other {A} (l : list A) n x m : m <> n -> nth_error (upd l n x) m = nth_error l m.
Proof. revert n m; induction l as [|y l IH]; intros [|n] [|m] H; cbn [upd nth_error]; auto; try congruence. Qed.
Lemma nth_upd {A} (l : list A) n x m :
  nth_error (upd l n x) m = if Nat.eqb m n then (if n <? length l then Some x else None) else nth_error l m.
Proof.
  destruct (Nat.eqb_spec m n) as [->|H]; [|now apply upd_other]. destruct (Nat.ltb_spec n (length l)) as [H|H]; [now apply upd_same|].
  apply nth_error_None. now rewrite upd_length.
Qed.
Lemma upd_upd {A} (l : list A) n x y : upd (upd l n x) n y = upd l n y.
Proof. revert n; induction l as [|z l IH]; intros [|n]; cbn [upd]; auto. now rewrite IH. Qed.
Lemma upd_id {A} (l : list A) n x : nth_error l n = Some x -> upd l n x = l.
Proof. revert n; induction l as [|z l IH]; intros [|n] H; cbn [upd nth_error] in *; try discriminate; [congruence|]. now rewrite IH. Qed.
Lemma Forall_upd {A} (P : A -> Prop) l n x : Forall P l -> P x -> Forall P (upd l n x).
Proof. intros H Hx. revert n; induction H; intros [|n]; cbn [upd]; constructor; auto. Qed.

(** Sum of weights. *)
Fixpoint sumw {A} (w : A -> nat) (l : list A) : nat := match l with [] => 0 | x :: l' => w x + sumw w l' end.
Lemma sumw_upd {A} (w : A -> nat) l n x y : nth_error l n = Some x -> sumw w (upd l n y) + w x = sumw w l + w y.
Proof. revert n; induction l as [|z l IH]; intros [|n] H; cbn [upd nth_error sumw] in *; try discriminate; [injection H as ->; lia|]. specialize (IH n H). lia. Qed.
Lemma sumw_ge {A} (w : A -> nat) l n x : nth_error l n = Some x -> w x <= sumw w l.
Proof. revert n; induction l as [|z l IH]; intros [|n] H; cbn [nth_error sumw] in *; try discriminate; [injection H as ->; lia|]. specialize (IH n H). lia. Qed.
Lemma sumw_zero {A} (w : A -> nat) l : (forall n x, nth_error l n = Some x -> w x = 0) -> sumw w l = 0.
Proof.
  induction l as [|z l IH]; intro H; cbn [sumw]; [reflexivity|]. rewrite (H 0 z eq_refl), IH; [reflexivity|]. intros n x Hx. exact (H (S n) x Hx).
Qed.
Lemma sumw_pos {A} (w : A -> nat) l : 0 < sumw w l -> exists n x, nth_error l n = Some x /\ 0 < w x.
Proof.
  induction l as [|z l IH]; cbn [sumw]; intro H; [lia|]. destruct (w z) as [|k] eqn:E.
  - destruct IH as (n & x & Hx & Hw); [lia|]. exists (S n), x. auto.
  - exists 0, z. split; [reflexivity|lia].
Qed.
Lemma sumw_repeat {A} (w : A -> nat) x n : sumw w (repeat x n) = n * w x.
Proof. induction n as [|n IH]; cbn [repeat sumw Nat.mul]; lia. Qed.
Lemma sumw_app {A} (w : A -> nat) l l' : sumw w (l ++ l') = sumw w l + sumw w l'.
Proof. induction l as [|x l IH]; cbn [app sumw]; lia. Qed.
