(** The writer of mcdump: invariant. *)
From Coq Require Import ZArith List Bool Arith Lia.
From Verif Require Import ConcBase DumpWModel.
Import ListNotations.

Definition todo (p : wpc) : list Z := match p with WCopy d | WPush d _ | WPop d _ => d | _ => [] end.
Definition curbytes (w : wst) : list Z := match w_cur w with Some b => firstn (b_len b) (b_data b) | None => [] end.
Definition late (p : wpc) : Prop := match p with WPop _ true | WStop | WJoin _ | WTrunc | WClosed | WThrew | WTerminate => True | _ => False end.
Definition joining (p : wpc) : Prop := match p with WJoin _ | WTrunc | WClosed | WThrew | WTerminate => True | _ => False end.
Definition inflight (w : wst) (b : buf) : Prop := In b (w_ring w) \/ exists i k, nth_error (w_disks w) i = Some (DWrite b k).
Definition covered (bs : nat) (w : wst) (p : nat) : Prop :=
  f_byte (w_file w) p = nth p (w_all w) 0%Z \/ (exists b, In b (w_ring w) /\ b_off b <= p < b_off b + bs) \/
  (exists i b k, nth_error (w_disks w) i = Some (DWrite b k) /\ b_off b + k <= p < b_off b + bs) \/ exists i, nth_error (w_disks w) i = Some DFailed.
Definition buf_ok (bs : nat) (w : wst) (b : buf) : Prop :=
  length (b_data b) = bs /\ (forall j, j < bs -> b_off b + j < w_total w -> nth j (b_data b) 0%Z = nth (b_off b + j) (w_all w) 0%Z) /\ (b_off b + bs <= w_total w \/ late (w_pc w)).
Definition busy (d : dpc) : nat := match d with DWrite _ _ | DReturn _ | DFailed => 1 | _ => 0 end.
Definition hascur (w : wst) : nat := match w_cur w with Some _ => 1 | None => 0 end.
Record winv (c : wconf) (w : wst) : Prop := {
  i_len : length (w_disks w) = disks c;
  i_all : exists pre, w_all w = pre ++ curbytes w ++ todo (w_pc w) /\ length pre = w_total w;
  i_cur : match w_pc w with
          | WPop _ _ => w_cur w = None
          | p => exists b, w_cur w = Some b /\ b_off b = w_total w /\ length (b_data b) = bufsize c /\
                 match p with WIdle | WCopy _ => b_len b < bufsize c | WPush _ false => b_len b = bufsize c | WPush _ true => 0 < b_len b <= bufsize c | _ => b_len b = 0 end
          end;
  i_closing : match w_pc w with WPush d true | WPop d true => d = [] | _ => True end;
  i_ok : forall b, inflight w b -> buf_ok (bufsize c) w b;
  i_ret : forall b i, nth_error (w_disks w) i = Some (DReturn b) -> length (b_data b) = bufsize c;
  i_k : forall b i k, nth_error (w_disks w) i = Some (DWrite b k) -> k < bufsize c;
  i_free : Forall (fun b => length (b_data b) = bufsize c /\ b_len b = 0) (w_free w);
  i_cov : forall p, p < w_total w -> covered (bufsize c) w p;
  i_done : (exists i, nth_error (w_disks w) i = Some DDone) -> w_ring w = [] /\ w_rstop w = true;
  i_rstop : w_rstop w = true <-> joining (w_pc w);
  i_join : match w_pc w with WJoin n => forall i, i < n -> nth_error (w_disks w) i = Some DDone | WTrunc | WClosed => forall i, i < disks c -> nth_error (w_disks w) i = Some DDone | _ => True end;
  i_closed : w_pc w = WClosed -> content (w_file w) = w_all w;
  i_count : w_pc w <> WClosed -> length (w_ring w) + length (w_free w) + sumw busy (w_disks w) + hascur w = depth c;
  i_failed : (exists i, nth_error (w_disks w) i = Some DFailed) -> w_stop w = true
}.

Lemma winv_init c mem : 0 < bufsize c -> 0 < depth c -> winv c (winit c mem).
Proof.
  intros B D. assert (N : forall i d, nth_error (repeat DIdle (disks c)) i = Some d -> d = DIdle) by (intros i d H; apply nth_error_In in H; now apply repeat_spec in H).
  constructor; cbn [winit w_pc w_cur w_total w_ring w_rstop w_free w_disks w_file w_stop w_all todo].
  - apply repeat_length.
  - exists []. cbn. split; reflexivity.
  - eexists. split; [reflexivity|]. cbn [new_buf b_off b_data b_len]. rewrite map_length, seq_length. repeat split; lia.
  - exact I.
  - intros b [[]|(i & k & H)]. cbn [w_disks] in H. now apply N in H.
  - intros b i H. now apply N in H.
  - intros b i k H. now apply N in H.
  - apply Forall_forall. intros b H. apply in_map_iff in H as (j & <- & _). cbn [new_buf b_data b_len]. now rewrite map_length, seq_length.
  - intros p H. lia.
  - intros (i & H). now apply N in H.
  - cbn. split; [discriminate|contradiction].
  - exact I.
  - discriminate.
  - intros _. change (hascur (winit c mem)) with 1. rewrite map_length, seq_length, sumw_repeat. cbn [busy length]. lia.
  - intros (i & H). now apply N in H.
Qed.

Lemma winv_call c w w' data : winv c w -> wcall w data = Some w' -> winv c w'.
Proof.
  intros I H. unfold wcall in H. destruct (w_pc w) eqn:Ep; try discriminate. injection H as <-. destruct I. rewrite Ep in *.
  assert (St : forall p, p < w_total w -> nth p (w_all w ++ data) 0%Z = nth p (w_all w) 0%Z). { destruct i_all0 as (pre & E & L). intros p Hp. apply app_nth1. rewrite E, app_length. lia. }
  constructor; cbn [w_pc w_cur w_total w_ring w_rstop w_free w_disks w_file w_stop w_all todo]; auto; try discriminate.
  - destruct i_all0 as (pre & E & L). exists pre. split; [|exact L]. unfold curbytes in *. cbn [w_cur todo] in *. rewrite app_nil_r in E. rewrite E, <- !app_assoc. reflexivity.
  - intros b H. destruct (i_ok0 b H) as (H1 & H2 & H3). split; [exact H1|]. split; [|rewrite Ep in H3; exact H3]. cbn [w_total w_all]. intros j Hj Hp. rewrite St by assumption. now apply H2.
  - intros p Hp. destruct (i_cov0 p Hp) as [H|H]; [left|right; exact H]. cbn [w_file w_all]. now rewrite St.
  - intros _. apply i_count0. discriminate.
Qed.
Lemma winv_close c w w' : winv c w -> wclose w = Some w' -> winv c w'.
Proof.
  intros I H. unfold wclose in H. destruct (w_pc w) eqn:Ep; try discriminate. destruct (w_cur w) as [b|] eqn:Ec; [|discriminate]. injection H as <-. destruct I. rewrite Ep in *. destruct i_cur0 as (b0 & E0 & O0 & L0 & B0). rewrite Ec in E0. injection E0 as <-.
  destruct (Nat.ltb_spec 0 (b_len b)) as [P|P].
  - constructor; unfold set_pc; cbn [w_pc w_cur w_total w_ring w_rstop w_free w_disks w_file w_stop w_all todo]; auto; try discriminate.
    + exists b. split; [exact Ec|]. repeat split; auto; lia.
    + intros b1 H1. destruct (i_ok0 b1 H1) as (A1 & A2 & A3). split; [exact A1|]. split; [exact A2|]. rewrite Ep in A3. destruct A3 as [A3|[]]. left. exact A3.
    + intros _. apply i_count0. discriminate.
  - constructor; unfold set_pc; cbn [w_pc w_cur w_total w_ring w_rstop w_free w_disks w_file w_stop w_all todo]; auto; try discriminate.
    + exists b. split; [exact Ec|]. repeat split; auto; lia.
    + intros b1 H1. destruct (i_ok0 b1 H1) as (A1 & A2 & A3). split; [exact A1|]. split; [exact A2|]. right. exact I.
    + intros _. apply i_count0. discriminate.
Qed.

Lemma content_trunc f n l : length l = n -> (forall p, p < n -> f_byte f p = nth p l 0%Z) -> content (ftruncate f n) = l.
Proof.
  intros L H. unfold content, ftruncate. cbn [f_byte f_size]. rewrite <- L in *. clear L. erewrite map_ext_in with (g := fun p => nth p l 0%Z). 2:{ intros p Hp. apply in_seq in Hp. destruct (Nat.ltb_spec p (length l)); [|lia]. apply H. lia. }
  clear H. induction l as [|x l IH]; [reflexivity|]. cbn [length seq map nth]. f_equal. rewrite <- seq_shift, map_map. exact IH.
Qed.
Lemma copy_in_spec bs b data : b_len b < bs -> length (b_data b) = bs -> data <> [] -> let (b', rest) := copy_in bs b data in
  b_off b' = b_off b /\ length (b_data b') = bs /\ b_len b <= b_len b' <= bs /\ firstn (b_len b') (b_data b') ++ rest = firstn (b_len b) (b_data b) ++ data /\ (b_len b' < bs -> rest = []).
Proof.
  intros L Ld N. unfold copy_in. cbn [b_off b_data b_len]. set (n := Nat.min (length data) (bs - b_len b)). assert (Hn : n <= length data /\ n <= bs - b_len b) by (unfold n; lia). split; [reflexivity|].
  assert (L1 : length (firstn (b_len b) (b_data b)) = b_len b) by (apply firstn_length_le; lia). assert (L2 : length (firstn n data) = n) by (apply firstn_length_le; lia).
  split; [rewrite !app_length, L1, L2, skipn_length; lia|]. split; [lia|]. split.
  - rewrite firstn_app, L1. rewrite firstn_all2 by lia. replace (b_len b + n - b_len b) with n by lia. rewrite firstn_app, L2, Nat.sub_diag, firstn_O, app_nil_r, firstn_firstn, Nat.min_id. rewrite <- app_assoc. now rewrite firstn_skipn.
  - intro H. assert (n = length data) by (unfold n in *; lia). now apply skipn_all2; lia.
Qed.

Lemma winv_step c w w' : 0 < bufsize c -> 0 < disks c -> winv c w -> wstep c w = Some w' -> winv c w'.
Proof.
  intros Bp Dp I H. unfold wstep in H. destruct (w_pc w) as [|data|data cl|data cl| |n| | | |] eqn:Ep; try discriminate.
  - (* copy *) destruct I. rewrite Ep in *. destruct i_cur0 as (b & Ec & O & Ld & Ll). rewrite Ec in H. destruct data as [|z data].
    + injection H as <-. constructor; unfold set_pc; cbn [w_pc w_cur w_total w_ring w_rstop w_free w_disks w_file w_stop w_all todo]; auto; try discriminate.
      * exists b. repeat split; auto.
      * intros b1 H1. destruct (i_ok0 b1 H1) as (A1 & A2 & A3). split; [exact A1|]. split; [exact A2|]. rewrite Ep in A3. destruct A3 as [A3|[]]. left. exact A3.
      * intros _. apply i_count0. discriminate.
    + remember (z :: data) as dd. assert (Nd : dd <> []) by (subst; discriminate). pose proof (copy_in_spec (bufsize c) b dd Ll Ld Nd) as Cs. destruct (copy_in (bufsize c) b dd) as [b' rest]. destruct Cs as (C1 & C2 & C3 & C4 & C5).
      assert (H' : w' = {| w_pc := if b_len b' =? bufsize c then WPush rest false else WCopy rest; w_cur := Some b'; w_total := w_total w; w_ring := w_ring w; w_rstop := w_rstop w; w_free := w_free w; w_disks := w_disks w; w_file := w_file w; w_stop := w_stop w; w_all := w_all w |}) by (subst dd; congruence). clear H. subst w'.
      assert (Tp : todo (if b_len b' =? bufsize c then WPush rest false else WCopy rest) = rest) by (destruct (b_len b' =? bufsize c); reflexivity). assert (Nl : forall X : Prop, match (if b_len b' =? bufsize c then WPush rest false else WCopy rest) with WPop _ _ => False | WJoin _ | WTrunc | WClosed => False | _ => True end) by (intro; destruct (b_len b' =? bufsize c); exact I).
      constructor; cbn [w_pc w_cur w_total w_ring w_rstop w_free w_disks w_file w_stop w_all]; auto.
      * destruct i_all0 as (pre & E & L). exists pre. split; [|exact L]. unfold curbytes in *. cbn [w_cur]. rewrite Ec in E. cbn [todo] in E. rewrite Tp, C4. exact E.
      * destruct (Nat.eqb_spec (b_len b') (bufsize c)); exists b'; repeat split; auto; try lia.
      * destruct (b_len b' =? bufsize c); exact I.
      * intros b1 H1. destruct (i_ok0 b1 H1) as (A1 & A2 & A3). split; [exact A1|]. split; [exact A2|]. rewrite Ep in A3. destruct A3 as [A3|[]]. left. exact A3.
      * destruct (b_len b' =? bufsize c); exact i_rstop0.
      * destruct (b_len b' =? bufsize c); exact I.
      * destruct (b_len b' =? bufsize c); discriminate.
      * intros _. specialize (i_count0 ltac:(discriminate)). unfold hascur in *. cbn [w_cur]. rewrite Ec in i_count0. exact i_count0.
  - (* push *) destruct I. rewrite Ep in *. destruct i_cur0 as (b & Ec & O & Ld & Ll). rewrite Ec in H. destruct (Nat.ltb_spec (length (w_ring w)) (depth c)) as [Lr|]; [|discriminate]. injection H as <-. assert (Lb : b_len b <= bufsize c) by (destruct cl; lia).
    destruct i_all0 as (pre & E & L). unfold curbytes in E. rewrite Ec in E. cbn [todo] in E. assert (Lf : length (firstn (b_len b) (b_data b)) = b_len b) by (apply firstn_length_le; lia).
    constructor; cbn [w_pc w_cur w_total w_ring w_rstop w_free w_disks w_file w_stop w_all todo]; auto; try discriminate.
    + exists (pre ++ firstn (b_len b) (b_data b)). unfold curbytes. cbn [w_cur]. split; [rewrite E, <- !app_assoc; reflexivity|]. rewrite app_length. lia.
    + intros b1 H1. assert (b1 = b \/ inflight w b1) as [->|H2]. { destruct H1 as [H1|H1]; cbn [w_ring w_disks] in H1; [apply in_app_or in H1 as [H1|[<-|[]]]; [right; now left|now left]|right; right; exact H1]. }
      * split; [exact Ld|]. cbn [w_total w_all w_pc]. split; [|destruct cl; [right; exact I|left; lia]]. intros j Hj Hp. rewrite E, O, app_nth2 by lia. rewrite L. replace (w_total w + j - w_total w) with j by lia. rewrite app_nth1 by lia.
        rewrite <- (firstn_skipn (b_len b) (b_data b)) at 1. apply app_nth1. lia.
      * destruct (i_ok0 b1 H2) as (A1 & A2 & A3). rewrite Ep in A3. destruct A3 as [A3|[]]. split; [exact A1|]. cbn [w_total w_all w_pc]. split; [|left; lia]. intros j Hj _. apply A2; [exact Hj|lia].
    + intros p Hp. destruct (Nat.lt_ge_cases p (w_total w)) as [Hq|Hq].
      * destruct (i_cov0 p Hq) as [A|[(b1 & A1 & A2)|[A|A]]]; unfold covered; cbn [w_ring w_disks w_file w_all]; auto. right. left. exists b1. split; [apply in_or_app; now left|exact A2].
      * right. left. cbn [w_ring]. exists b. split; [apply in_or_app; right; now left|]. lia.
    + intros (i & Hi). exfalso. assert (J : joining (WPush data cl)) by (apply i_rstop0, i_done0; now exists i). exact J.
    + intros _. specialize (i_count0 ltac:(discriminate)). unfold hascur in *. cbn [w_cur]. rewrite Ec in i_count0. rewrite app_length. cbn [length]. lia.
  - (* pop *) destruct I. rewrite Ep in *. rewrite i_cur0 in H. destruct (w_free w) as [|b fr] eqn:Ef; [discriminate|]. injection H as <-. inversion_clear i_free0 as [|? ? [F1 F2] F3].
    assert (Nj : forall p', p' = (if cl then WStop else WCopy data) -> ~ joining p' /\ todo p' = data) by (intros p' ->; destruct cl; cbn; [rewrite i_closing0|]; tauto). destruct (Nj _ eq_refl) as [Nj1 Nj2].
    constructor; cbn [w_pc w_cur w_total w_ring w_rstop w_free w_disks w_file w_stop w_all]; auto.
    + destruct i_all0 as (pre & E & L). exists pre. split; [|exact L]. unfold curbytes in *. cbn [w_cur b_len b_data]. rewrite F2. cbn [firstn app]. rewrite Nj2. rewrite i_cur0 in E. exact E.
    + destruct cl; eexists; (split; [reflexivity|]); cbn [b_off b_data b_len]; repeat split; auto; lia.
    + destruct cl; exact I.
    + intros b1 H1. destruct (i_ok0 b1 H1) as (A1 & A2 & A3). split; [exact A1|]. split; [exact A2|]. rewrite Ep in A3. cbn [w_pc w_total]. destruct cl; [right; exact I|left; destruct A3 as [A3|[]]; exact A3].
    + rewrite i_rstop0. cbn [joining]. tauto.
    + destruct cl; exact I.
    + destruct cl; discriminate.
    + intros _. specialize (i_count0 ltac:(discriminate)). unfold hascur in *. cbn [w_cur]. rewrite i_cur0 in i_count0. cbn [length] in i_count0. lia.
  - (* stop *) injection H as <-. destruct I. rewrite Ep in *. constructor; cbn [w_pc w_cur w_total w_ring w_rstop w_free w_disks w_file w_stop w_all todo]; auto; try discriminate.
    + intros b1 H1. destruct (i_ok0 b1 H1) as (A1 & A2 & A3). split; [exact A1|]. split; [exact A2|]. right. exact I.
    + intros X. split; [apply (i_done0 X)|reflexivity].
    + split; [intros _; exact I|reflexivity].
    + intros i Hi. lia.
    + intros _. apply i_count0. discriminate.
  - (* join *) destruct I. rewrite Ep in *. destruct (nth_error (w_disks w) n) as [d|] eqn:En.
    + destruct d; try discriminate; injection H as <-.
      * constructor; unfold set_pc; cbn [w_pc w_cur w_total w_ring w_rstop w_free w_disks w_file w_stop w_all todo]; auto; try discriminate.
        -- intros b1 H1. destruct (i_ok0 b1 H1) as (A1 & A2 & A3). split; [exact A1|]. split; [exact A2|]. right. exact I.
        -- intros i Hi. destruct (Nat.eq_dec i n) as [->|]; [exact En|]. apply i_join0. lia.
        -- intros _. apply i_count0. discriminate.
      * constructor; unfold set_pc, raise_stop; cbn [w_pc w_cur w_total w_ring w_rstop w_free w_disks w_file w_stop w_all todo]; auto; try discriminate.
        -- intros b1 H1. destruct (i_ok0 b1 H1) as (A1 & A2 & A3). split; [exact A1|]. split; [exact A2|]. right. exact I.
        -- intros _. apply i_count0. discriminate.
    + injection H as <-. apply nth_error_None in En. constructor; unfold set_pc; cbn [w_pc w_cur w_total w_ring w_rstop w_free w_disks w_file w_stop w_all todo]; auto; try discriminate.
      * intros b1 H1. destruct (i_ok0 b1 H1) as (A1 & A2 & A3). split; [exact A1|]. split; [exact A2|]. right. exact I.
      * intros i Hi. apply i_join0. lia.
      * intros _. apply i_count0. discriminate.
  - (* truncate *) injection H as <-. destruct I. rewrite Ep in *. constructor; cbn [w_pc w_cur w_total w_ring w_rstop w_free w_disks w_file w_stop w_all todo]; auto; try discriminate.
    + intros b1 H1. destruct (i_ok0 b1 H1) as (A1 & A2 & A3). split; [exact A1|]. split; [exact A2|]. right. exact I.
    + intros p Hp. destruct (i_cov0 p Hp) as [A|A]; [left|right; exact A]. unfold ftruncate. cbn [w_file w_all f_byte]. destruct (Nat.ltb_spec p (w_total w)); [exact A|lia].
    + intros _. destruct i_all0 as (pre & E & L). destruct i_cur0 as (b & Ec & _ & _ & Bz). unfold curbytes in E. rewrite Ec, Bz in E. cbn [firstn app todo] in E. rewrite app_nil_r in E. apply content_trunc; [congruence|]. intros p Hp.
      assert (Rn : w_ring w = []) by (apply i_done0; exists 0; apply i_join0; lia). assert (Dn : forall i d, nth_error (w_disks w) i = Some d -> d = DDone). { intros i d Hi. assert (i < disks c) by (rewrite <- i_len0; apply nth_error_Some; congruence). rewrite i_join0 in Hi by assumption. congruence. }
      destruct (i_cov0 p Hp) as [A|[(b1 & A1 & _)|[(i & b1 & k & A & _)|(i & A)]]]; [exact A|rewrite Rn in A1; destruct A1|now apply Dn in A|now apply Dn in A].
    + intro X. now destruct X.
  - (* destructor *) injection H as <-. destruct I. rewrite Ep in *. constructor; unfold set_pc; cbn [w_pc w_cur w_total w_ring w_rstop w_free w_disks w_file w_stop w_all todo]; auto; try discriminate.
    + intros b1 H1. destruct (i_ok0 b1 H1) as (A1 & A2 & A3). split; [exact A1|]. split; [exact A2|]. right. exact I.
    + intros _. apply i_count0. discriminate.
Qed.

Lemma pwrite_byte f off data p : f_byte (pwrite f off data) p = if (off <=? p) && (p <? off + length data) then nth (p - off) data 0%Z else f_byte f p.
Proof. reflexivity. Qed.
Lemma winv_disk c w w' i a : 0 < bufsize c -> winv c w -> dstep c w i a = Some w' -> winv c w'.
Proof.
  intros Bp I H. unfold dstep in H. destruct (nth_error (w_disks w) i) as [d|] eqn:Ei; [|discriminate]. assert (Li : i < length (w_disks w)) by (apply nth_error_Some; congruence).
  assert (Up : forall d' j x, nth_error (upd (w_disks w) i d') j = Some x -> (j = i /\ x = d') \/ (j <> i /\ nth_error (w_disks w) j = Some x)).
  { intros d' j x Hj. rewrite nth_upd in Hj. destruct (Nat.eqb_spec j i) as [->|]; [|right; auto]. destruct (Nat.ltb_spec i (length (w_disks w))); [|lia]. left. split; congruence. }
  assert (Us : forall d', nth_error (upd (w_disks w) i d') i = Some d') by (intros; now apply upd_same). assert (Uo : forall d' j, j <> i -> nth_error (upd (w_disks w) i d') j = nth_error (w_disks w) j) by (intros; now apply upd_other).
  assert (Jn : d <> DDone -> match w_pc w with WTrunc | WClosed => False | WJoin n => n <= i | _ => True end).
  { intro Nd. destruct I. rewrite i_len0 in Li. destruct (w_pc w); auto; [|specialize (i_join0 i Li); congruence|specialize (i_join0 i Li); congruence]. destruct (Nat.le_gt_cases i0 i) as [|Hl]; [assumption|]. specialize (i_join0 i Hl). congruence. }
  assert (Sw : forall d', sumw busy (upd (w_disks w) i d') + busy d = sumw busy (w_disks w) + busy d') by (intros; now apply sumw_upd).
  assert (Jo : forall d', d <> DDone -> match w_pc w with WJoin n => forall j, j < n -> nth_error (upd (w_disks w) i d') j = Some DDone | WTrunc | WClosed => forall j, j < disks c -> nth_error (upd (w_disks w) i d') j = Some DDone | _ => True end).
  { intros d' Nd. specialize (Jn Nd). pose proof (i_join c w I) as Ij. destruct (w_pc w); auto; try contradiction. intros j Hj. rewrite Uo by lia. now apply Ij. }
  assert (Cl : d <> DDone -> w_pc w <> WClosed) by (intros Nd E; specialize (Jn Nd); now rewrite E in Jn).
  destruct d as [|b k|b| |]; destruct a as [|n| | | |]; try discriminate.
  - (* pop *) destruct (w_ring w) as [|b r] eqn:Er; [discriminate|]. injection H as <-. assert (Nd : DIdle <> DDone) by discriminate. specialize (Jo (DWrite b 0) Nd). specialize (Cl Nd). destruct I. rewrite Er in *.
    assert (Ok : buf_ok (bufsize c) w b) by (apply i_ok0; left; rewrite Er; now left).
    constructor; cbn [w_pc w_cur w_total w_ring w_rstop w_free w_disks w_file w_stop w_all]; auto; try congruence.
    + now rewrite upd_length.
    + intros b1 [H1|(j & k & H1)]; cbn [w_ring w_disks] in H1; [apply i_ok0; left; rewrite Er; now right|]. apply Up in H1 as [[_ H1]|[_ H1]]; [injection H1 as -> _; exact Ok|]. apply i_ok0. right. now exists j, k.
    + intros b1 j H1. apply Up in H1 as [[_ H1]|[_ H1]]; [discriminate|]. eapply i_ret0, H1.
    + intros b1 j k H1. apply Up in H1 as [[_ H1]|[_ H1]]; [injection H1 as _ ->; exact Bp|eapply i_k0, H1].
    + intros p Hp. destruct (i_cov0 p Hp) as [A|[(b1 & A1 & A2)|[(j & b1 & k & A1 & A2)|(j & A)]]]; unfold covered; cbn [w_ring w_disks w_file w_all]; [now left| | |].
      * rewrite Er in A1. destruct A1 as [<-|A1]; right; [right; left; exists i, b, 0; split; [apply Us|lia]|left; now exists b1].
      * right. right. left. exists j, b1, k. split; [|exact A2]. rewrite Uo; [exact A1|congruence].
      * right. right. right. exists j. rewrite Uo; [exact A|congruence].
    + intros (j & H1). apply Up in H1 as [[_ H1]|[_ H1]]; [discriminate|]. destruct i_done0 as [X _]; [now exists j|discriminate].
    + intros _. specialize (i_count0 Cl). specialize (Sw (DWrite b 0)). unfold hascur in *. cbn [busy length w_cur] in *. lia.
    + intros (j & H1). apply Up in H1 as [[_ H1]|[_ H1]]; [discriminate|]. apply i_failed0. now exists j.
  - (* exit *) destruct (w_ring w) as [|b r] eqn:Er; [|discriminate]. destruct (w_rstop w) eqn:Es; [|discriminate]. injection H as <-. assert (Nd : DIdle <> DDone) by discriminate. specialize (Jo DDone Nd). specialize (Cl Nd). destruct I. rewrite Er in *.
    constructor; unfold set_disk; cbn [w_pc w_cur w_total w_ring w_rstop w_free w_disks w_file w_stop w_all]; auto; try congruence.
    + now rewrite upd_length.
    + intros b1 [H1|(j & k & H1)]; cbn [w_ring w_disks] in H1; [rewrite Er in H1; destruct H1|]. apply Up in H1 as [[_ H1]|[_ H1]]; [discriminate|]. apply i_ok0. right. now exists j, k.
    + intros b1 j H1. apply Up in H1 as [[_ H1]|[_ H1]]; [discriminate|]. eapply i_ret0, H1.
    + intros b1 j k H1. apply Up in H1 as [[_ H1]|[_ H1]]; [discriminate|eapply i_k0, H1].
    + intros p Hp. destruct (i_cov0 p Hp) as [A|[(b1 & A1 & A2)|[(j & b1 & k & A1 & A2)|(j & A)]]]; unfold covered; cbn [w_ring w_disks w_file w_all]; [now left|rewrite Er in A1; destruct A1| |].
      * right. right. left. exists j, b1, k. split; [|exact A2]. rewrite Uo; [exact A1|congruence].
      * right. right. right. exists j. rewrite Uo; [exact A|congruence].
    + intros _. specialize (i_count0 Cl). specialize (Sw DDone). rewrite Er. unfold hascur in *. cbn [busy length w_cur] in *. lia.
    + intros (j & H1). apply Up in H1 as [[_ H1]|[_ H1]]; [discriminate|]. apply i_failed0. now exists j.
  - (* write *) destruct (Nat.leb_spec n (bufsize c - k)) as [Ln|]; [|discriminate]. injection H as <-. assert (Nd : DWrite b k <> DDone) by discriminate. set (d' := if k + n =? bufsize c then DReturn b else DWrite b (k + n)) in *. specialize (Jo d' Nd). specialize (Cl Nd). destruct I.
    assert (Ok : buf_ok (bufsize c) w b) by (apply i_ok0; right; now exists i, k). pose proof (i_k0 b i k Ei) as Kb. destruct Ok as (Ld & Ok & Lt).
    assert (D' : (d' = DReturn b /\ k + n = bufsize c) \/ (d' = DWrite b (k + n) /\ k + n < bufsize c)) by (unfold d'; destruct (Nat.eqb_spec (k + n) (bufsize c)); [left; auto|right; split; [reflexivity|lia]]).
    assert (Lw : length (firstn n (skipn k (b_data b))) = n) by (rewrite firstn_length, skipn_length; lia).
    assert (Wb : forall p, b_off b + k <= p < b_off b + k + n -> p < w_total w -> f_byte (pwrite (w_file w) (b_off b + k) (firstn n (skipn k (b_data b)))) p = nth p (w_all w) 0%Z).
    { intros p Hp Ht. rewrite pwrite_byte, Lw. destruct (Nat.leb_spec (b_off b + k) p); [|lia]. destruct (Nat.ltb_spec p (b_off b + k + n)); [|lia]. cbn [andb].
      replace (nth (p - (b_off b + k)) (firstn n (skipn k (b_data b))) 0%Z) with (nth (p - b_off b) (b_data b) 0%Z); [replace p with (b_off b + (p - b_off b)) at 2 by lia; apply Ok; lia|].
      rewrite <- (firstn_skipn k (b_data b)) at 1. rewrite app_nth2 by (rewrite firstn_length; lia). rewrite firstn_length, Nat.min_l by lia. rewrite <- (firstn_skipn n (skipn k (b_data b))) at 1. rewrite app_nth1 by lia. f_equal. lia. }
    constructor; cbn [w_pc w_cur w_total w_ring w_rstop w_free w_disks w_file w_stop w_all]; auto; try congruence.
    + now rewrite upd_length.
    + intros b1 [H1|(j & k1 & H1)]; cbn [w_ring w_disks] in H1; [apply i_ok0; now left|]. apply Up in H1 as [[_ H1]|[_ H1]]; [|apply i_ok0; right; now exists j, k1]. destruct D' as [[-> _]|[-> _]]; [discriminate|]. injection H1 as -> _. split; [exact Ld|]. split; [exact Ok|exact Lt].
    + intros b1 j H1. apply Up in H1 as [[_ H1]|[_ H1]]; [|eapply i_ret0, H1]. destruct D' as [[-> _]|[-> _]]; [|discriminate]. now injection H1 as ->.
    + intros b1 j k1 H1. apply Up in H1 as [[_ H1]|[_ H1]]; [|eapply i_k0, H1]. destruct D' as [[-> _]|[-> X]]; [discriminate|]. now injection H1 as _ ->.
    + intros p Hp. unfold covered. cbn [w_ring w_disks w_file w_all]. destruct (i_cov0 p Hp) as [A|[A|[(j & b1 & k1 & A1 & A2)|(j & A)]]].
      * left. destruct (Nat.lt_ge_cases p (b_off b + k)) as [X|X]; [|destruct (Nat.lt_ge_cases p (b_off b + k + n)) as [Y|Y]; [apply Wb; lia|]]; rewrite pwrite_byte, Lw; [destruct (Nat.leb_spec (b_off b + k) p); [lia|exact A]|]. destruct (Nat.ltb_spec p (b_off b + k + n)); [lia|]. now rewrite andb_false_r.
      * right. now left.
      * destruct (Nat.eq_dec j i) as [->|Ne]; [|right; right; left; exists j, b1, k1; split; [now rewrite Uo|exact A2]]. rewrite Ei in A1. injection A1 as <- <-. destruct (Nat.lt_ge_cases p (b_off b + k + n)) as [Y|Y]; [left; apply Wb; lia|]. destruct D' as [[-> X]|[-> X]]; [lia|]. right. right. left. exists i, b, (k + n). split; [apply Us|lia].
      * right. right. right. exists j. rewrite Uo; [exact A|congruence].
    + intros (j & H1). apply Up in H1 as [[_ H1]|[_ H1]]; [destruct D' as [[-> _]|[-> _]]; discriminate|]. apply i_done0. now exists j.
    + intros _. specialize (i_count0 Cl). specialize (Sw d'). unfold hascur in *. cbn [w_cur]. destruct D' as [[-> _]|[-> _]]; cbn [busy] in *; lia.
    + intros (j & H1). apply Up in H1 as [[_ H1]|[_ H1]]; [destruct D' as [[-> _]|[-> _]]; discriminate|]. apply i_failed0. now exists j.
  - (* interrupted *) injection H as <-. exact I.
  - (* fail *) injection H as <-. assert (Nd : DWrite b k <> DDone) by discriminate. specialize (Jo DFailed Nd). specialize (Cl Nd). destruct I.
    constructor; unfold raise_stop, set_disk; cbn [w_pc w_cur w_total w_ring w_rstop w_free w_disks w_file w_stop w_all]; auto; try congruence.
    + now rewrite upd_length.
    + intros b1 [H1|(j & k1 & H1)]; cbn [w_ring w_disks] in H1; [apply i_ok0; now left|]. apply Up in H1 as [[_ H1]|[_ H1]]; [discriminate|apply i_ok0; right; now exists j, k1].
    + intros b1 j H1. apply Up in H1 as [[_ H1]|[_ H1]]; [discriminate|]. eapply i_ret0, H1.
    + intros b1 j k1 H1. apply Up in H1 as [[_ H1]|[_ H1]]; [discriminate|eapply i_k0, H1].
    + intros p Hp. right. right. right. exists i. apply Us.
    + intros (j & H1). apply Up in H1 as [[_ H1]|[_ H1]]; [discriminate|]. apply i_done0. now exists j.
    + intros _. specialize (i_count0 Cl). specialize (Sw DFailed). unfold hascur in *. cbn [busy w_cur] in *. lia.
  - (* return *) destruct (Nat.ltb_spec (length (w_free w)) (depth c)) as [Lf|]; [|discriminate]. injection H as <-. assert (Nd : DReturn b <> DDone) by discriminate. specialize (Jo DIdle Nd). specialize (Cl Nd). destruct I.
    constructor; cbn [w_pc w_cur w_total w_ring w_rstop w_free w_disks w_file w_stop w_all]; auto; try congruence.
    + now rewrite upd_length.
    + intros b1 [H1|(j & k1 & H1)]; cbn [w_ring w_disks] in H1; [apply i_ok0; now left|]. apply Up in H1 as [[_ H1]|[_ H1]]; [discriminate|apply i_ok0; right; now exists j, k1].
    + intros b1 j H1. apply Up in H1 as [[_ H1]|[_ H1]]; [discriminate|]. eapply i_ret0, H1.
    + intros b1 j k1 H1. apply Up in H1 as [[_ H1]|[_ H1]]; [discriminate|eapply i_k0, H1].
    + apply Forall_app. split; [exact i_free0|]. repeat constructor. cbn [b_data]. eapply i_ret0, Ei.
    + intros p Hp. unfold covered. cbn [w_ring w_disks w_file w_all]. destruct (i_cov0 p Hp) as [A|[A|[(j & b1 & k1 & A1 & A2)|(j & A)]]]; [now left|right; now left| |].
      * right. right. left. exists j, b1, k1. split; [|exact A2]. rewrite Uo; [exact A1|congruence].
      * right. right. right. exists j. rewrite Uo; [exact A|congruence].
    + intros (j & H1). apply Up in H1 as [[_ H1]|[_ H1]]; [discriminate|]. apply i_done0. now exists j.
    + intros _. specialize (i_count0 Cl). specialize (Sw DIdle). unfold hascur in *. cbn [busy w_cur] in *. rewrite app_length. cbn [length]. lia.
    + intros (j & H1). apply Up in H1 as [[_ H1]|[_ H1]]; [discriminate|]. apply i_failed0. now exists j.
Qed.
Definition wconf_ok (c : wconf) : Prop := 0 < bufsize c /\ 0 < depth c /\ 0 < disks c.
Lemma winv_label c w l w' : wconf_ok c -> winv c w -> wlstep c w l = Some w' -> winv c w'.
Proof. intros (B & D & K) I H. destruct l; cbn [wlstep] in H; eauto using winv_call, winv_close, winv_step, winv_disk. Qed.

(** Nobody but a failed disk thread keeps the collector waiting: when it cannot go on inside
    the writer, a disk thread can. *)
Definition wactive (p : wpc) : Prop := match p with WCopy _ | WPush _ _ | WPop _ _ | WStop | WJoin _ | WTrunc => True | _ => False end.
Lemma winv_progress c w : wconf_ok c -> winv c w -> wactive (w_pc w) -> (forall i, nth_error (w_disks w) i <> Some DFailed) ->
  (exists w', wstep c w = Some w') \/ exists i a w', dstep c w i a = Some w' /\ a <> DoInt /\ a <> DoFail /\ a <> DoWrite 0.
Proof.
  intros (Bp & Dp & Kp) I A Nf.
  assert (Cnt : w_pc w <> WClosed) by (intro E; now rewrite E in A). pose proof (i_count c w I Cnt) as Ct.
  assert (Bz : forall i d, nth_error (w_disks w) i = Some d -> busy d = 1 -> exists a w', dstep c w i a = Some w' /\ a <> DoInt /\ a <> DoFail /\ a <> DoWrite 0).
  { intros i d Hi Hb. destruct d as [|b k|b| |]; try discriminate; [| |now apply Nf in Hi].
    - exists (DoWrite (bufsize c - k)). unfold dstep. rewrite Hi. destruct (Nat.leb_spec (bufsize c - k) (bufsize c - k)); [|lia]. pose proof (i_k c w I b i k Hi). eexists. repeat split; try discriminate. intro X. injection X. lia.
    - exists DoReturn. unfold dstep. rewrite Hi. assert (1 <= sumw busy (w_disks w)) by (pose proof (sumw_ge busy (w_disks w) i _ Hi); cbn [busy] in *; lia). destruct (Nat.ltb_spec (length (w_free w)) (depth c)); [|lia]. eexists. repeat split; discriminate. }
  destruct (w_pc w) as [|data|data cl|data cl| |n| | | |] eqn:Ep; try contradiction; pose proof (i_cur c w I) as Ic; rewrite Ep in Ic.
  - left. destruct Ic as (b & Ec & _). unfold wstep. rewrite Ep, Ec. destruct data; [eauto|]. destruct (copy_in _ _ _). eauto.
  - left. destruct Ic as (b & Ec & _). unfold wstep. rewrite Ep, Ec. unfold hascur in Ct. rewrite Ec in Ct. destruct (Nat.ltb_spec (length (w_ring w)) (depth c)); [eauto|lia].
  - destruct (w_free w) as [|b fr] eqn:Ef; [|left; unfold wstep; rewrite Ep, Ic, Ef; eauto]. right. unfold hascur in Ct. rewrite Ic in Ct. cbn [length] in Ct. destruct (Nat.eq_dec (sumw busy (w_disks w)) 0) as [E0|E0].
    + (* all disk threads idle *) destruct (nth_error (w_disks w) 0) as [d|] eqn:E; [|apply nth_error_None in E; rewrite (i_len c w I) in E; lia]. destruct d; try (pose proof (sumw_ge busy _ _ _ E); cbn [busy] in *; lia); [|exfalso; assert (J : joining (w_pc w)) by (apply (i_rstop c w I), (i_done c w I); now exists 0); now rewrite Ep in J].
      exists 0, DoPop. unfold dstep. rewrite E. destruct (w_ring w); [cbn [length] in Ct; lia|]. eexists. repeat split; discriminate.
    + destruct (sumw_pos busy (w_disks w) ltac:(lia)) as (i & d & Hi & Hd). exists i. apply (Bz i d Hi). destruct d; cbn [busy] in *; lia.
  - left. unfold wstep. rewrite Ep. destruct (w_cur w); eauto.
  - unfold wstep. rewrite Ep. destruct (nth_error (w_disks w) n) as [d|] eqn:En; [|left; destruct (w_cur w); eauto]. destruct d; [right; exists n|right; exists n; now apply (Bz _ _ En)|right; exists n; now apply (Bz _ _ En)|left; destruct (w_cur w); eauto|now apply Nf in En].
    assert (Rs : w_rstop w = true) by (apply (i_rstop c w I); now rewrite Ep). unfold dstep. rewrite En. destruct (w_ring w) eqn:Er; [exists DoExit; rewrite Rs|exists DoPop]; eexists; repeat split; discriminate.
  - left. unfold wstep. rewrite Ep. destruct (w_cur w); eauto.
Qed.
