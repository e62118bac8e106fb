(** Invariant of the multi-packet ibverbs receiver. *)
From Coq Require Import ZArith List Bool Arith Lia.
From Verif Require InprocProofs IbvRecvProofs.
From Verif Require Import Base ConcBase CodecModel RecvPacketModel RecvPacketProps LiveHeapModel LiveHeapSpec LiveHeapProofs StreamModel StreamSpec StreamProofs StreamInvProofs StreamRunProofs StreamProps RawModel RawSpec RawProps ReadersModel ReadersSpec ReadersProofs ReadersProps IbvRecvModel IbvRecvSpec MprqModel MprqSpec.
Import ListNotations.
Open Scope Z_scope.

(** *** Memory *)
Lemma load_ext m m' a n : (forall x, a <= x < a + n -> m' x = m x) -> load m' a n = load m a n.
Proof. intro H. unfold load. apply map_ext_in. intros i Hi. apply in_seq in Hi. apply H. lia. Qed.
Lemma zlen_load m a n : 0 <= n -> zlen (load m a n) = n.
Proof. intro H. unfold load, zlen. rewrite map_length, seq_length. lia. Qed.
Lemma load_written m a f : load (fun x => if (a <=? x) && (x <? a + zlen f) then nth (Z.to_nat (x - a)) f 0 else m x) a (zlen f) = f.
Proof.
  unfold load. transitivity (map (fun i => nth i f 0) (seq 0 (length f))).
  - unfold zlen at 2. rewrite Nat2Z.id. apply map_ext_in. intros i Hi. apply in_seq in Hi. unfold zlen. destruct (Z.leb_spec a (a + Z.of_nat i)); [|lia]. destruct (Z.ltb_spec (a + Z.of_nat i) (a + Z.of_nat (length f))); [|lia]. cbn [andb]. f_equal. lia.
  - clear. induction f as [|x f IH]; [reflexivity|]. cbn [length seq map nth]. f_equal. rewrite <- seq_shift, map_map. exact IH.
Qed.

Lemma mod_apart m a b : a < b -> b - a < m -> a mod m <> b mod m.
Proof. intros H1 H2 E. assert (K : (b - a) mod m = 0) by (rewrite Zminus_mod, E, Z.sub_diag; apply Z.mod_0_l; lia). rewrite Z.mod_small in K by lia. lia. Qed.
Lemma sub_mod m a b : 0 < m -> (a mod m - b) mod m = (a - b) mod m.
Proof. intro H. rewrite Zminus_mod_idemp_l. reflexivity. Qed.
Lemma mod_mod_pow a e : 0 <= e <= 32 -> (a mod 2 ^ 32) mod 2 ^ e = a mod 2 ^ e.
Proof. intro H. symmetry. apply Znumtheory.Zmod_div_mod; [apply Z.pow_pos_nonneg; lia|reflexivity|]. exists (2 ^ (32 - e)). rewrite <- Z.pow_add_r by lia. f_equal. lia. Qed.
Lemma land_pow a e : 0 <= e -> Z.land a (2 ^ e - 1) = a mod 2 ^ e.
Proof. intro H. replace (2 ^ e - 1) with (Z.ones e) by (rewrite Z.ones_equiv; lia). now apply Z.land_ones. Qed.

Lemma card_arith N W cq k u n p r h q t : 1 <= N -> 1 <= n -> u + n <= N -> k < p -> 0 <= u < N -> p - r <= W -> 0 <= h -> h + q + r * N <= k * N + u -> W * N <= cq -> 0 <= r <= t -> t <= k <= p ->
  (h + q <? cq) = true /\ (if u + n =? N then k + 1 else k) * N + (if u + n =? N then 0 else u + n) = k * N + u + n /\ (t <= (if u + n =? N then k + 1 else k) <= p) /\ (0 <= (if u + n =? N then 0 else u + n) < N) /\
  (if u + n =? N then k + 1 else k) * N + (if u + n =? N then 0 else u + n) <= p * N /\ 0 <= h /\ h + (q + 1) + r * N <= (if u + n =? N then k + 1 else k) * N + (if u + n =? N then 0 else u + n).
Proof.
  intros. assert (CP : k * N + u + n <= p * N) by (pose proof (Z.mul_le_mono_nonneg_r (k + 1) p N ltac:(lia) ltac:(lia)); lia). assert (PR : (p - r) * N <= W * N) by (apply Z.mul_le_mono_nonneg_r; lia).
  assert (E : (if u + n =? N then k + 1 else k) * N + (if u + n =? N then 0 else u + n) = k * N + u + n) by (destruct (Z.eqb_spec (u + n) N); lia). rewrite E. split; [apply Z.ltb_lt; lia|]. split; [reflexivity|]. split; [destruct (u + n =? N); lia|]. split; [destruct (Z.eqb_spec (u + n) N); lia|]. lia.
Qed.

Lemma wrap_arith W r WS : 1 <= W -> 1 <= WS -> (if r mod W * WS + WS =? W * WS then 0 else r mod W * WS + WS) = ((r + 1) mod W) * WS.
Proof.
  intros H1 H2. pose proof (Z.mod_pos_bound r W ltac:(lia)) as B. rewrite <- (Zplus_mod_idemp_l r 1 W). destruct (Z.eqb_spec (r mod W * WS + WS) (W * WS)) as [E|E].
  - assert (X : r mod W + 1 = W) by (apply (Z.mul_reg_r _ _ WS); lia). rewrite X, Z.mod_same by lia. lia.
  - rewrite (Z.mod_small (r mod W + 1)); [lia|]. assert (r mod W + 1 <> W) by (intro X; apply E; rewrite <- X; lia). lia.
Qed.
(** The reader moves on by [n] strides *)
Lemma move_arith N t ts n C k u p : 1 <= N -> 1 <= n -> 0 <= ts -> ts + n <= N -> t * N + ts + n <= C -> C = k * N + u -> 0 <= u < N -> t <= k <= p -> 0 <= ts < N ->
  (if N <=? ts + n then t + 1 else t) * N + (if N <=? ts + n then 0 else ts + n) = t * N + ts + n /\ t <= (if N <=? ts + n then t + 1 else t) <= k /\ 0 <= (if N <=? ts + n then 0 else ts + n) < N.
Proof.
  intros. destruct (Z.leb_spec N (ts + n)) as [L|L]; [|lia]. split; [lia|]. split; [|lia]. split; [lia|]. assert (t + 1 < k + 1); [|lia]. apply (Zmult_lt_reg_r _ _ N); lia.
Qed.

Section Inv.
Context (sc : sconfig) (c : mconfig) (Cf : config_ok sc) (Mo : mcfg_ok c) (Ea : early c = false).
Notation next := (next sc c).
Notation reach := (reach sc c).
Notation N := (n_strides c).
Notation W := (wqe c).
Notation WS := (wqe_size c).
Notation St := (stride c).
Notation rc := {| IbvRecvModel.n_slots := 0; IbvRecvModel.raw_size := 0; IbvRecvModel.max_size := m_max c; IbvRecvModel.max_poll := 0; IbvRecvModel.channel := false |}.
Notation pk := (IbvRecvProofs.pk rc).

(** *** Positions: strides counted from the first; where a stride is in the buffer *)
Definition addr (q : Z) : Z := ((q / N) mod W) * WS + (q mod N) * St.
Lemma N_pos : 1 <= N.
Proof. apply Mo. Qed.
Lemma St_pos : 1 <= St.
Proof. apply Mo. Qed.
Lemma W_pos : 1 <= W.
Proof. apply Mo. Qed.
Lemma WS_def : WS = N * St.
Proof. reflexivity. Qed.
Lemma addr_at j u : 0 <= u < N -> addr (j * N + u) = (j mod W) * WS + u * St.
Proof. intro H. unfold addr. rewrite Z.div_add_l, Z.div_small, Z.add_0_r by lia. replace (j * N + u) with (u + j * N) by lia. rewrite Z.mod_add by lia. rewrite (Z.mod_small u) by lia. reflexivity. Qed.
Lemma mod_near a b : a < b -> b - a < W -> a mod W <> b mod W.
Proof.
  intros H1 H2 E. pose proof W_pos. assert (K : (b - a) mod W = 0) by (rewrite Zminus_mod, E, Z.sub_diag; apply Z.mod_0_l; lia). rewrite Z.mod_small in K by lia. lia.
Qed.
Lemma split_pos x : 0 <= x -> exists j u, x = j * N + u /\ 0 <= u < N /\ x / N = j /\ x mod N = u.
Proof. intro H. pose proof N_pos. exists (x / N), (x mod N). pose proof (Z.div_mod x N ltac:(lia)). pose proof (Z.mod_pos_bound x N ltac:(lia)). repeat split; lia. Qed.
(** Buffers do not overlap. *)
Lemma apart a b x n y m : a <> b -> 0 <= x -> x + n <= WS -> 0 <= y -> y + m <= WS -> a * WS + x + n <= b * WS + y \/ b * WS + y + m <= a * WS + x.
Proof. intros H X1 X2 Y1 Y2. pose proof N_pos. pose proof St_pos. assert (P : 0 <= WS) by (rewrite WS_def; nia). assert (a < b \/ b < a) as [L|L] by lia; [left; pose proof (Z.mul_le_mono_nonneg_r (a + 1) b WS P ltac:(lia))|right; pose proof (Z.mul_le_mono_nonneg_r (b + 1) a WS P ltac:(lia))]; lia. Qed.
(** Strides before position [C], in buffers not too far back, are not where the card writes. *)
Lemma strides_apart t kk u x n len n' len' : t <= kk -> kk - t < W -> 0 <= u -> 1 <= n' -> u + n' <= N -> len' <= n' * St -> 0 <= t * N <= x -> x mod N + n <= N -> 1 <= n -> x + n <= kk * N + u -> len <= n * St ->
  addr x + len <= (kk mod W) * WS + u * St \/ (kk mod W) * WS + u * St + len' <= addr x.
Proof.
  intros H1 H2 U1 U2 U3 U4 X1 X2 X3 X4 X5. pose proof N_pos. pose proof St_pos. destruct (split_pos x ltac:(lia)) as (j & v & E & V & _ & VM). rewrite VM in X2. subst x. rewrite addr_at by lia.
  assert (JT : t <= j) by (assert (t < j + 1); [|lia]; apply (Zmult_lt_reg_r _ _ N); lia). assert (JK : j <= kk) by (assert (j < kk + 1); [|lia]; apply (Zmult_lt_reg_r _ _ N); lia).
  assert (BV : v * St + len <= WS) by (rewrite WS_def; pose proof (Z.mul_le_mono_nonneg_r (v + n) N St ltac:(lia) ltac:(lia)); lia). assert (BU : u * St + len' <= WS) by (rewrite WS_def; pose proof (Z.mul_le_mono_nonneg_r (u + n') N St ltac:(lia) ltac:(lia)); lia).
  assert (j = kk \/ j < kk) as [-> |L] by lia.
  - left. pose proof (Z.mul_le_mono_nonneg_r (v + n) u St ltac:(lia) ltac:(lia)). lia.
  - pose proof (mod_near j kk L ltac:(lia)) as MN. pose proof (Z.mul_nonneg_nonneg v St ltac:(lia) ltac:(lia)). pose proof (Z.mul_nonneg_nonneg u St ltac:(lia) ltac:(lia)). destruct (apart (j mod W) (kk mod W) (v * St) len (u * St) len' MN) as [K|K]; lia.
Qed.

(** *** Completions that have not been dealt with *)
Fixpoint pend (m : Z -> Z) (C : Z) (dd : bool) (q : Z) (l : list comp) (fs : list (list Z)) : Prop :=
  match l with
  | [] => fs = [] /\ q <= C /\ (dd = false -> q = C)
  | w :: l' =>
      if c_ok w then
        exists n len fl, c_cnt w = (if fl : bool then 32768 + n else n) * 65536 + len /\ 0 <= len < 65536 /\ 1 <= n /\ q mod N + n <= N /\
          (if fl then pend m C dd (q + n) l' fs else len <= n * St /\ exists fs', fs = load m (addr q) len :: fs' /\ pend m C dd (q + n) l' fs')
      else dd = true /\ Forall (fun w => c_ok w = false) l' /\ fs = [] /\ q + zlen l <= C
  end.
Lemma pend_len m C dd : forall l q fs, pend m C dd q l fs -> q + zlen l <= C.
Proof.
  induction l as [|w l IH]; intros q fs H; cbn [pend] in H.
  - destruct H as (_ & H & _). unfold zlen. cbn. lia.
  - destruct (c_ok w); [|tauto]. destruct H as (n & len & fl & _ & _ & H1 & _ & H). rewrite zlen_cons. destruct fl; [apply IH in H; lia|]. destruct H as (_ & fs' & _ & H). apply IH in H. lia.
Qed.
Lemma pend_mem m m' C dd : forall l q fs, pend m C dd q l fs -> (forall x n len, q <= x -> x mod N + n <= N -> 1 <= n -> x + n <= C -> len <= n * St -> load m' (addr x) len = load m (addr x) len) -> pend m' C dd q l fs.
Proof.
  induction l as [|w l IH]; intros q fs H E; cbn [pend] in H |- *; [exact H|]. destruct (c_ok w); [|exact H]. destruct H as (n & len & fl & H1 & H2 & H3 & H4 & H). exists n, len, fl. split; [exact H1|]. split; [exact H2|]. split; [exact H3|]. split; [exact H4|].
  destruct fl; [apply IH; [exact H|intros; apply (E x n0); lia]|]. destruct H as (H5 & fs' & -> & H). split; [exact H5|]. exists fs'. split; [|apply IH; [exact H|intros; apply (E x n0); lia]]. f_equal. symmetry. apply (E q n); try lia. apply pend_len in H. pose proof (zlen_nonneg l). lia.
Qed.
Lemma pend_ok m C n len (fl : bool) : 1 <= n -> C mod N + n <= N -> 0 <= len < 65536 -> (fl = false -> len <= n * St) ->
  forall l q fs, pend m C false q l fs -> pend m (C + n) false q (l ++ [{| c_ok := true; c_cnt := (if fl then 32768 + n else n) * 65536 + len |}]) (fs ++ (if fl then [] else [load m (addr C) len])).
Proof.
  intros H1 H2 H3 H4. induction l as [|w l IH]; intros q fs H; cbn [pend app] in H |- *.
  - destruct H as (-> & _ & E). rewrite (E eq_refl). cbn [c_ok c_cnt]. exists n, len, fl. split; [reflexivity|]. split; [exact H3|]. split; [exact H1|]. split; [exact H2|]. destruct fl; cbn [app].
    + split; [reflexivity|]. split; [lia|reflexivity].
    + split; [auto|]. exists []. split; [reflexivity|]. split; [reflexivity|]. split; [lia|reflexivity].
  - destruct (c_ok w); [|destruct H as (H & _); discriminate]. destruct H as (n' & len' & fl' & K1 & K2 & K3 & K4 & H). exists n', len', fl'. split; [exact K1|]. split; [exact K2|]. split; [exact K3|]. split; [exact K4|].
    destruct fl'; [now apply IH|]. destruct H as (K5 & fs' & -> & H). split; [exact K5|]. exists (fs' ++ (if fl then [] else [load m (addr C) len])). split; [reflexivity|]. now apply IH.
Qed.
Lemma pend_err m C dd n cnt : 1 <= n -> forall l q fs, pend m C dd q l fs -> pend m (C + n) true q (l ++ [{| c_ok := false; c_cnt := cnt |}]) fs.
Proof.
  intro H1. induction l as [|w l IH]; intros q fs H; cbn [pend app] in H |- *.
  - destruct H as (-> & H & _). cbn [c_ok]. split; [reflexivity|]. split; [constructor|]. split; [reflexivity|]. unfold zlen. cbn. lia.
  - destruct (c_ok w) eqn:O.
    + destruct H as (n' & len' & fl' & K1 & K2 & K3 & K4 & H). exists n', len', fl'. split; [exact K1|]. split; [exact K2|]. split; [exact K3|]. split; [exact K4|]. destruct fl'; [now apply IH|]. destruct H as (K5 & fs' & -> & H). split; [exact K5|]. exists fs'. split; [reflexivity|]. now apply IH.
    + destruct H as (_ & K1 & K2 & K3). split; [reflexivity|]. split; [apply Forall_app; split; [exact K1|constructor; [reflexivity|constructor]]|]. split; [exact K2|]. rewrite zlen_cons in *. rewrite zlen_app. unfold zlen at 2. cbn. lia.
Qed.

(** *** The invariant *)
Definition inside (p : pc) : bool := match p with Iter _ _ | Poll _ _ _ | Last _ _ _ | Repost _ _ _ => true | _ => false end.
Definition polling (p : pc) : bool := match p with Poll _ _ _ | Last _ _ _ => true | _ => false end.
Definition notified (p : pc) : bool := match p with Waiting => true | Iter _ n | Poll _ n _ | Last _ n _ | Repost _ n _ => negb n | _ => false end.
Definition polled (p : pc) : bool := match p with Waiting => true | Iter _ n => negb n | _ => false end.
(** [p], [t], [r]: entries posted, used up, posted again *)
Record geo (s : state) (p t r : Z) (fs : list (list Z)) : Prop := {
  g_head : head s = p mod 2 ^ 32;
  g_tail : tail s = t mod 2 ^ 32;
  g_db : db s = p mod 65536;
  g_posted : p = W - Z.of_nat (todo s) + r /\ Z.of_nat (todo s) <= W;
  g_order : 0 <= r <= t /\ t <= k s <= p;
  g_pc : match at_ s with Last _ _ _ | Repost _ _ _ => t = r + 1 /\ tstr s = 0 | Gone => t = r \/ t = r + 1 | _ => t = r end;
  g_todo : todo s <> 0%nat -> t = 0;
  g_wstart : wstart s = (r mod W) * WS;
  g_ring : zlen (ring s) = wqe_cnt c /\ forall j, t <= j < p -> entry c s j = (j mod W) * WS;
  g_tstr : 0 <= tstr s < N;
  g_used : 0 <= used s < N /\ k s * N + used s <= p * N;
  g_pend : pend (mem s) (k s * N + used s) (dead s) (t * N + tstr s) (cq s) fs;
  g_held : 0 <= held s /\ held s + zlen (cq s) + r * N <= k s * N + used s;
  g_rel : polling (at_ s) = false -> held s = 0;
  g_taken : taken s = all_frames (log s) ++ cur s ++ fs
}.
Record inv (s : state) : Prop := {
  i_geo : exists p t r fs, geo s p t r fs;
  i_bytes : Forall bytes_ok (taken s);
  i_event : notified (at_ s) = true -> armed s || event s = true;
  i_polled : polled (at_ s) = true -> cq s <> [] -> event s = true;
  i_run : exists ops, Forall2 (means (m_max c)) (log s) ops /\ Forall op_decoded ops /\ run sc (stream_new sc) ops = Some (str s, rs s);
  i_gone : at_ s = Gone -> st_stopped (str s) = true;
  i_out : inside (at_ s) = false -> cur s = [];
  i_in : inside (at_ s) = true -> st_stopped (str s) = false /\ feed sc (no_work (str s)) (flat_map pk (cur s)) = Some (wk s) /\ is_stopped (wk s) = false
}.

(** *** The card *)
Lemma bound s p t r fs : geo s p t r fs -> p - r <= W /\ 0 <= p - k s <= W /\ 0 <= p - t <= W.
Proof. intros G. destruct (g_posted _ _ _ _ _ G), (g_order _ _ _ _ _ G). lia. Qed.
Lemma geo_avail s p t r fs : geo s p t r fs -> avail s = p - k s.
Proof.
  intro G. pose proof (bound s p t r fs G). pose proof (mo_wqe c Mo). unfold avail. rewrite (g_db _ _ _ _ _ G), sub_mod by lia. apply Z.mod_small. lia.
Qed.
Lemma complete_inv s ok cnt n f dd : inv s -> 0 < avail s -> 1 <= n -> used s + n <= N ->
  (forall p t r fs, geo s p t r fs -> exists fs',
     pend (match f with Some f => fun x => if (entry c s (k s) + used s * St <=? x) && (x <? entry c s (k s) + used s * St + zlen f) then nth (Z.to_nat (x - (entry c s (k s) + used s * St))) f 0 else mem s x | None => mem s end)
          (k s * N + used s + n) dd (t * N + tstr s) (cq s ++ [{| c_ok := ok; c_cnt := cnt |}]) fs' /\
     match f with Some f => taken s ++ [f] | None => taken s end = all_frames (log s) ++ cur s ++ fs') ->
  Forall bytes_ok (match f with Some f => taken s ++ [f] | None => taken s end) ->
  exists s', complete c ok cnt n f dd s = Ok s' /\ inv s'.
Proof.
  intros [(p & t & r & fs & G) IB IE IP IR IG IO II] A H1 H2 HP HB. destruct (HP p t r fs G) as (fs' & P & T). clear HP. rewrite (geo_avail _ _ _ _ _ G) in A.
  pose proof (bound _ _ _ _ _ G) as (B1 & B2 & B3). destruct (g_used _ _ _ _ _ G) as (U1 & U2). destruct (g_held _ _ _ _ _ G) as (L1 & L2). pose proof (mo_cqe c Mo) as MC. pose proof N_pos as NP. destruct (g_order _ _ _ _ _ G) as (O1 & O2).
  destruct (card_arith N W (cqe c) (k s) (used s) n p r (held s) (zlen (cq s)) t NP H1 H2 ltac:(lia) U1 B1 L1 L2 MC O1 O2) as (LT & E & KK & UU & CP & L3). rewrite E in CP, L3. unfold complete. rewrite LT. eexists. split; [reflexivity|].
  constructor; cbn [at_ todo ring head tail tstr db wstart mem k used dead cq held armed event str wk rs taken cur log]; auto.
  - exists p, t, r, fs'. destruct G as [g1 g2 g3 g4 g5 g6 g7 g8 g9 g10 g11 g12 g13 g14 g15]. constructor; cbn [at_ todo ring head tail tstr db wstart mem k used dead cq held armed event str wk rs taken cur log]; auto.
    + split; [exact UU|]. rewrite E. exact CP.
    + rewrite E. exact P.
    + rewrite E, zlen_app. exact L3.
  - intro K. cbn [orb]. rewrite orb_comm. auto.
  - intros K _. rewrite orb_comm. apply IE. destruct (at_ s); cbn in *; auto; discriminate.
Qed.
Lemma card_addr s p t r fs : geo s p t r fs -> k s < p -> entry c s (k s) + used s * St = addr (k s * N + used s) /\ entry c s (k s) = (k s mod W) * WS.
Proof. intros G L. destruct (g_ring _ _ _ _ _ G) as (_ & R). destruct (g_order _ _ _ _ _ G). rewrite R by lia. split; [|reflexivity]. symmetry. apply addr_at, (g_used _ _ _ _ _ G). Qed.
Lemma pos_mod s p t r fs : geo s p t r fs -> (k s * N + used s) mod N = used s.
Proof. intro G. pose proof N_pos. destruct (g_used _ _ _ _ _ G). rewrite Z.add_comm, Z.mod_add, Z.mod_small by lia. reflexivity. Qed.
Lemma recv_ok s f n : inv s -> bytes_ok f -> dead s = false -> 0 < avail s -> 1 <= n -> used s + n <= N -> zlen f <= n * St -> zlen f < 65536 -> exists s', complete c true (n * 65536 + zlen f) n (Some f) false s = Ok s' /\ inv s'.
Proof.
  intros I Bf D A H1 H2 H3 H4. apply complete_inv; auto.
  - intros p t r fs G. exists (fs ++ [f]). rewrite (geo_avail _ _ _ _ _ G) in A. pose proof (bound _ _ _ _ _ G) as (B1 & B2 & B3). destruct (g_order _ _ _ _ _ G) as (O1 & O2). destruct (card_addr _ _ _ _ _ G ltac:(lia)) as (CA & CE). pose proof N_pos. pose proof (zlen_nonneg f).
    split; [|rewrite (g_taken _ _ _ _ _ G), <- !app_assoc; reflexivity]. rewrite CA. set (m' := fun x => _). replace [f] with [load m' (addr (k s * N + used s)) (zlen f)] by (unfold m'; now rewrite load_written).
    apply (pend_ok m' _ n (zlen f) false); auto; try lia.
    + rewrite (pos_mod _ _ _ _ _ G). exact H2.
    + apply (pend_mem (mem s)). { rewrite <- D. apply (g_pend _ _ _ _ _ G). } intros x n0 len X1 X2 X3 X4 X5. apply load_ext. intros y Hy. unfold m'. rewrite <- CA, CE.
      destruct (g_used _ _ _ _ _ G) as (U1 & _). destruct (g_tstr _ _ _ _ _ G) as (T1 & _). pose proof (Z.mul_nonneg_nonneg t N ltac:(lia) ltac:(lia)).
      destruct (strides_apart t (k s) (used s) x n0 len n (zlen f)) as [K|K]; try lia; (destruct (Z.leb_spec ((k s mod W) * WS + used s * St) y); [|reflexivity]; destruct (Z.ltb_spec y ((k s mod W) * WS + used s * St + zlen f)); [lia|reflexivity]).
  - destruct I. apply Forall_app. auto.
Qed.
Lemma fill_ok s n len : inv s -> dead s = false -> 0 < avail s -> 1 <= n -> used s + n <= N -> 0 <= len < 65536 -> exists s', complete c true ((32768 + n) * 65536 + len) n None false s = Ok s' /\ inv s'.
Proof.
  intros I D A H1 H2 H3. apply complete_inv; auto; [|apply I]. intros p t r fs G. exists fs. split; [|apply (g_taken _ _ _ _ _ G)]. rewrite <- (app_nil_r fs). apply (pend_ok (mem s) _ n len true); auto; [rewrite (pos_mod _ _ _ _ _ G); exact H2|discriminate|]. rewrite <- D. apply (g_pend _ _ _ _ _ G).
Qed.
Lemma err_ok s : inv s -> 0 < avail s -> exists s', complete c false 0 (N - used s) None true s = Ok s' /\ inv s'.
Proof.
  intros I A. assert (U : 0 <= used s < N) by (destruct I as [(p & t & r & fs & G) _ _ _ _ _ _ _]; apply (g_used _ _ _ _ _ G)). apply complete_inv; auto; try lia; [|apply I]. intros p t r fs G. exists fs. split; [|apply (g_taken _ _ _ _ _ G)]. apply (pend_err _ _ (dead s)); [lia|apply (g_pend _ _ _ _ _ G)].
Qed.

(** *** Posting *)
Lemma post_ok s p t r fs p' td ws a : geo s p t r fs -> p - t < W -> exists s', post_recv c p' td ws a s = Ok s' /\
  s' = {| at_ := p'; todo := td; ring := ring s'; head := (p + 1) mod 2 ^ 32; tail := tail s; tstr := tstr s; db := (p + 1) mod 65536; wstart := ws; mem := mem s;
          k := k s; used := used s; dead := dead s; cq := cq s; held := held s; armed := armed s; event := event s; str := str s; wk := wk s; rs := rs s; taken := taken s; cur := cur s; log := log s |} /\
  zlen (ring s') = wqe_cnt c /\ (forall j, t <= j < p -> entry c s' j = (j mod W) * WS) /\ entry c s' p = a.
Proof.
  intros G L. pose proof (bound _ _ _ _ _ G) as (B1 & B2 & B3). pose proof (mo_wqe c Mo) as (M1 & M2). pose proof (mo_room c Mo) as M3. destruct (mo_cnt c Mo) as (e & He & Ec). destruct (g_ring _ _ _ _ _ G) as (RL & RE). destruct (g_order _ _ _ _ _ G) as (O1 & O2).
  unfold post_recv. rewrite (g_head _ _ _ _ _ G), (g_tail _ _ _ _ _ G), sub_mod, Zminus_mod_idemp_r, (Z.mod_small (p - t)) by (try reflexivity; lia). destruct (Z.leb_spec (wqe_cnt c) (p - t)); [lia|]. eexists. split; [reflexivity|]. cbn [at_ todo ring head tail tstr db wstart mem k used dead cq held armed event str wk rs taken cur log].
  assert (HD : (p mod 2 ^ 32 + 1) mod 2 ^ 32 = (p + 1) mod 2 ^ 32) by now rewrite Zplus_mod_idemp_l. rewrite HD. change 65535 with (2 ^ 16 - 1). rewrite land_pow by lia. rewrite mod_mod_pow by lia. change (2 ^ 16) with 65536.
  rewrite Ec, land_pow, mod_mod_pow by lia. rewrite <- Ec. split; [reflexivity|]. assert (PM : forall x, 0 <= x mod wqe_cnt c < wqe_cnt c) by (intro; apply Z.mod_pos_bound; lia). split; [|split].
  - unfold zlen in *. now rewrite upd_length.
  - intros j Hj. rewrite <- (RE j Hj). unfold entry. cbn [ring]. rewrite <- !nth_default_eq. unfold nth_default. rewrite upd_other; [reflexivity|]. pose proof (mod_apart (wqe_cnt c) j p ltac:(lia) ltac:(lia)). pose proof (PM j). pose proof (PM p). lia.
  - unfold entry. cbn [ring]. rewrite <- nth_default_eq. unfold nth_default. rewrite upd_same; [reflexivity|]. pose proof (PM p). unfold zlen in RL. lia.
Qed.

Ltac slia := repeat match goal with H : context[Z.modulo _ _] |- _ => clear H | H : pend _ _ _ _ _ _ |- _ => clear H | H : _ -> _ |- _ => clear H | H : match _ with Waiting => _ | _ => _ end |- _ => clear H | H : @eq state _ _ |- _ => clear H | H : @eq res _ _ |- _ => clear H end; lia.
Ltac fields := cbn [set_pc release upd_reader at_ todo ring head tail tstr db wstart mem k used dead cq held armed event str wk rs taken cur log].
Lemma WS_pos : 1 <= WS.
Proof. pose proof N_pos. pose proof St_pos. rewrite WS_def. pose proof (Z.mul_le_mono_nonneg 1 N 1 St). lia. Qed.
Lemma start_ok s : inv s -> do_start c s = Blocked \/ exists s', do_start c s = Ok s' /\ inv s'.
Proof.
  intro I. unfold do_start. destruct (todo s) as [|n] eqn:TD; [now left|right]. destruct I as [(p & t & r & fs & G) IB IE IP IR IG IO II].
  pose proof (bound _ _ _ _ _ G) as (B1 & B2 & B3). destruct (g_order _ _ _ _ _ G) as (O1 & O2). destruct (g_posted _ _ _ _ _ G) as (P1 & P2). rewrite TD in P1, P2. pose proof (g_todo _ _ _ _ _ G) as GT. rewrite TD in GT. specialize (GT ltac:(discriminate)). assert (r = 0) by slia. assert (PE : p = W - Z.of_nat (S n)) by slia.
  destruct (post_ok s p t r fs (at_ s) n (wstart s) ((W - Z.of_nat (S n)) * WS) G ltac:(slia)) as (s' & E & ES & RL & R1 & R2). exists s'. split; [exact E|]. rewrite ES. rewrite ES in R1, R2. constructor; fields; auto.
  exists (p + 1), t, r, fs. destruct G as [g1 g2 g3 g4 g5 g6 g7 g8 g9 g10 g11 g12 g13 g14 g15]. constructor; fields; auto; try slia.
  - split; [exact RL|]. intros j Hj. assert (j = p \/ t <= j < p) as [-> |Hj'] by slia; [|exact (R1 j Hj')]. transitivity ((W - Z.of_nat (S n)) * WS); [exact R2|]. rewrite <- PE. rewrite Z.mod_small by slia. reflexivity.
Qed.
Lemma repost_ok s i need it : inv s -> at_ s = Repost i need it -> exists s', do_repost c i need it s = Ok s' /\ inv s'.
Proof.
  intros I AT. destruct I as [(p & t & r & fs & G) IB IE IP IR IG IO II]. pose proof (bound _ _ _ _ _ G) as (B1 & B2 & B3). destruct (g_order _ _ _ _ _ G) as (O1 & O2). destruct (g_posted _ _ _ _ _ G) as (P1 & P2). pose proof (g_pc _ _ _ _ _ G) as GP. pose proof (g_rel _ _ _ _ _ G) as GR. rewrite AT in GP, GR. destruct GP as (GP & TZ). specialize (GR eq_refl).
  assert (T0 : todo s = 0%nat). { destruct (todo s) eqn:TD; [reflexivity|]. pose proof (g_todo _ _ _ _ _ G) as GT. rewrite TD in GT. specialize (GT ltac:(discriminate)). lia. }
  rewrite T0 in P1. unfold do_repost. pose proof (g_wstart _ _ _ _ _ G) as GW. unfold buffer_size. rewrite GW. rewrite (wrap_arith W r WS W_pos WS_pos).
  destruct (post_ok s p t r fs (Poll i need (S it)) (todo s) (((r + 1) mod W) * WS) (r mod W * WS) G ltac:(slia)) as (s' & E & ES & RL & R1 & R2). exists s'. split; [exact E|]. rewrite ES. rewrite ES in R1, R2. rewrite AT in *. constructor; fields; auto; [|discriminate].
  pose proof (pend_len _ _ _ _ _ _ (g_pend _ _ _ _ _ G)) as PL. destruct G as [g1 g2 g3 g4 g5 g6 g7 g8 g9 g10 g11 g12 g13 g14 g15]. exists (p + 1), t, (r + 1), fs. constructor; fields; auto; try slia.
  - split; [exact RL|]. intros j Hj. assert (j = p \/ t <= j < p) as [-> |Hj'] by slia; [|exact (R1 j Hj')]. transitivity (r mod W * WS); [exact R2|]. f_equal. rewrite P1. replace (W - Z.of_nat 0 + r) with (r + 1 * W) by slia. rewrite Z.mod_add; [reflexivity|]. pose proof W_pos. slia.
Qed.
(** *** Handlers *)
Lemma run_reachable s : inv s -> reachable sc (str s) (rs s).
Proof. intros [_ _ _ _ (ops & _ & D & R)]. now apply (reachable_run sc ops). Qed.
Lemma leave_ok need s p t r fs : geo s p t r fs -> held s = 0 -> (is_stopped (wk s) = false -> t = r) -> (t = r \/ t = r + 1) -> Forall bytes_ok (taken s) ->
  (need = false -> armed s || event s = true /\ (is_stopped (wk s) = false -> cq s <> [] -> event s = true)) ->
  (exists ops, Forall2 (means (m_max c)) (log s) ops /\ Forall op_decoded ops /\ run sc (stream_new sc) ops = Some (str s, rs s)) ->
  st_stopped (str s) = false -> feed sc (no_work (str s)) (flat_map pk (cur s)) = Some (wk s) ->
  exists s', leave sc c need s = Ok s' /\ inv s'.
Proof.
  intros G HZ G1 G2 IB IE (ops & M & D & R) N F. pose proof (g_taken _ _ _ _ _ G) as T. assert (BC : Forall bytes_ok (cur s)) by (rewrite T in IB; apply Forall_app in IB as (_ & IB); apply Forall_app in IB; tauto).
  pose proof (IbvRecvProofs.pk_decoded rc _ BC) as Dc. pose proof (reachable_run sc ops _ _ Cf D R) as Re. destruct (IbvRecvProofs.fed_ok sc Cf _ _ _ Re Dc N) as (x & st' & rs' & F' & E & S & -> & X). rewrite F in F'. injection F' as <-. unfold leave. rewrite E. eexists. split; [reflexivity|].
  set (pc' := if is_stopped (wk s) then Gone else if m_channel c && negb need then Waiting else Queued).
  assert (Z : inside pc' = false /\ polling pc' = false /\ (pc' = Gone -> is_stopped (wk s) = true) /\ match pc' with Last _ _ _ | Repost _ _ _ => t = r + 1 /\ tstr s = 0 | Gone => t = r \/ t = r + 1 | _ => t = r end).
  { unfold pc'. destruct (is_stopped (wk s)); [auto|]. destruct (m_channel c && negb need); (split; [reflexivity|]; split; [reflexivity|]; split; [discriminate|auto]). }
  destruct Z as (Z1 & Z2 & Z3 & Z4). constructor; fields; rewrite ?Z1; auto.
  - exists p, t, r, fs. destruct G as [g1 g2 g3 g4 g5 g6 g7 g8 g9 g10 g11 g12 g13 g14 g15]. constructor; fields; auto. unfold all_frames. rewrite flat_map_app. cbn [flat_map frames_of]. rewrite app_nil_r, <- app_assoc. exact T.
  - intro K. unfold pc' in K. destruct (is_stopped _); [discriminate|]. destruct (m_channel c); [|discriminate]. destruct need; [discriminate|]. now apply IE.
  - intros K C. unfold pc' in K. destruct (is_stopped _) eqn:SS; [discriminate|]. destruct (m_channel c); [|discriminate]. destruct need; [discriminate|]. now apply IE.
  - exists (ops ++ [Batch (flat_map pk (cur s)) false]). split; [|split].
    + apply Forall2_app; [exact M|]. constructor; [now apply (IbvRecvProofs.means_frames rc)|constructor].
    + apply Forall_app. split; [exact D|]. constructor; [exact Dc|constructor].
    + rewrite InprocProofs.run_snoc, R. cbn [step]. now rewrite S.
  - intro K. rewrite X. auto.
  - discriminate.
Qed.
Lemma frame_fed f x : bytes_ok f -> is_stopped x = false -> do_frame sc c f x = with_flag (feed sc x (pk f)).
Proof. exact (IbvRecvProofs.frame_fed sc rc f x). Qed.
Lemma do_iter_ok s i need : inv s -> at_ s = Iter i need -> exists s', do_iter sc c i need s = Ok s' /\ inv s'.
Proof.
  intros I E. destruct I as [(p & t & r & fs & G) IB IE IP IR IG IO II]. unfold do_iter. destruct (i <? m_poll c)%nat.
  - assert (X : forall nd, geo (set_pc (Poll i nd 0) s) p t r fs). { intro nd. destruct G as [g1 g2 g3 g4 g5 g6 g7 g8 g9 g10 g11 g12 g13 g14 g15]. rewrite E in *. constructor; fields; auto. }
    destruct (m_channel c && _).
    + eexists. split; [reflexivity|]. constructor; fields; auto; try discriminate; [|intros _; apply II; now rewrite E]. exists p, t, r, fs. destruct (X false) as [g1 g2 g3 g4 g5 g6 g7 g8 g9 g10 g11 g12 g13 g14 g15]. constructor; auto.
    + eexists. split; [reflexivity|]. rewrite E in *. constructor; fields; auto; try discriminate. exists p, t, r, fs. apply X.
  - rewrite E in *. destruct (II eq_refl) as (N & F & NS). pose proof (g_pc _ _ _ _ _ G) as GP. rewrite E in GP. apply (leave_ok need s p t r fs); auto; [apply (g_rel _ _ _ _ _ G); now rewrite E|]. intros ->. auto.
Qed.
(** A completion in hand *)
Lemma decode_cnt fl n len : 1 <= n <= N -> 0 <= len < 65536 ->
  let b := (if fl : bool then 32768 + n else n) * 65536 + len in b mod 65536 = len /\ (32768 <=? b / 65536) = fl /\ (if fl then b / 65536 - 32768 else b / 65536) = n.
Proof.
  clear Ea. intros H1 H2. pose proof (mo_strides c Mo). cbv zeta. rewrite Z.div_add_l, (Z.div_small len), Z.add_0_r by slia. rewrite (Z.add_comm _ len), Z.mod_add, Z.mod_small by slia. split; [reflexivity|]. destruct fl.
  - destruct (Z.leb_spec 32768 (32768 + n)); lia.
  - destruct (Z.leb_spec 32768 n); lia.
Qed.
Lemma read_ok s p t r fs n len : geo s p t r fs -> t = r -> 1 <= n -> tstr s + n <= N -> t * N + tstr s + n <= k s * N + used s -> 0 <= len <= n * St -> may_read c s (wstart s + (tstr s * St) mod 2 ^ 32) len = true /\ wstart s + (tstr s * St) mod 2 ^ 32 = addr (t * N + tstr s).
Proof.
  intros G TR H1 H2 H3 H4. pose proof N_pos. pose proof St_pos. pose proof W_pos. destruct (g_tstr _ _ _ _ _ G) as (T1 & T2). pose proof (mo_offset c Mo) as MO. rewrite WS_def in MO.
  assert (OB : tstr s * St + len <= WS) by (rewrite WS_def; pose proof (Z.mul_le_mono_nonneg_r (tstr s + n) N St ltac:(slia) ltac:(slia)); lia). assert (O0 : 0 <= tstr s * St) by (apply Z.mul_nonneg_nonneg; lia).
  assert (OL : tstr s * St < 2 ^ 32) by (pose proof (Z.mul_le_mono_nonneg_r (tstr s + 1) N St ltac:(slia) ltac:(slia)); slia). rewrite (Z.mod_small (tstr s * St)) by slia. rewrite (g_wstart _ _ _ _ _ G), addr_at, TR by slia. split; [|reflexivity]. rewrite <- TR.
  pose proof (Z.mod_pos_bound t W ltac:(slia)) as TM. pose proof WS_pos. pose proof (bound _ _ _ _ _ G) as (B1 & B2 & B3). destruct (g_order _ _ _ _ _ G) as (O1 & O2). destruct (g_used _ _ _ _ _ G) as (U1 & _).
  assert (TB : 0 <= t mod W * WS /\ t mod W * WS + WS <= W * WS) by (split; [apply Z.mul_nonneg_nonneg; lia|pose proof (Z.mul_le_mono_nonneg_r (t mod W + 1) W WS ltac:(lia) ltac:(lia)); lia]).
  unfold may_read, buffer_size. destruct (Z.leb_spec 0 (t mod W * WS + tstr s * St)); [|lia]. destruct (Z.leb_spec (t mod W * WS + tstr s * St + len) (W * WS)); [|lia]. cbn [andb]. apply forallb_forall. intros (lo & hi) Hin. unfold writable in Hin. apply in_map_iff in Hin as (i & E & Hi). apply in_seq in Hi. rewrite (geo_avail _ _ _ _ _ G) in Hi. cbn [fst snd].
  destruct (g_ring _ _ _ _ _ G) as (_ & RE). rewrite RE in E by slia. apply orb_true_iff. destruct i as [|i].
  - rewrite Z.add_0_r in E. injection E as <- <-. assert (k s = t \/ t < k s) as [KT|KT] by slia.
    + left. apply Z.leb_le. rewrite KT. rewrite KT in H3. assert (tstr s + n <= used s) by slia. pose proof (Z.mul_le_mono_nonneg_r (tstr s + n) (used s) St ltac:(slia) ltac:(slia)). lia.
    + pose proof (mod_near t (k s) KT ltac:(slia)) as MN. assert (0 <= used s * St) by (apply Z.mul_nonneg_nonneg; lia). assert (used s * St <= WS) by (rewrite WS_def; apply Z.mul_le_mono_nonneg_r; lia).
      destruct (apart (t mod W) (k s mod W) (tstr s * St) len (used s * St) (WS - used s * St) MN ltac:(lia) ltac:(lia) ltac:(lia) ltac:(lia)) as [K|K]; [left|right]; apply Z.leb_le; lia.
  - injection E as <- <-. rewrite Z.add_0_r. pose proof (mod_near t (k s + Z.of_nat (S i)) ltac:(slia) ltac:(slia)) as MN. destruct (apart (t mod W) ((k s + Z.of_nat (S i)) mod W) (tstr s * St) len 0 WS MN ltac:(lia) ltac:(lia) ltac:(lia) ltac:(lia)) as [K|K]; [left|right]; apply Z.leb_le; lia.
Qed.

(** The reader's position moves on by [n] strides. *)
Definition is_last (ts : Z) : bool := N <=? ts.
Definition next_tail (s : state) (n : Z) : Z := if is_last (tstr s + n) then (tail s + 1) mod 2 ^ 32 else tail s.
Definition next_tstr (s : state) (n : Z) : Z := if is_last (tstr s + n) then 0 else tstr s + n.
Lemma move_ok s p t r fs i need it n q fs' h x cur' : geo s p t r fs -> at_ s = Poll i need it -> 1 <= n -> tstr s + n <= N -> (is_last (tstr s + n) = true -> todo s = 0%nat) ->
  pend (mem s) (k s * N + used s) (dead s) (t * N + tstr s + n) q fs' -> zlen (cq s) = 1 + zlen q -> 0 <= h <= held s + 1 -> cur' ++ fs' = cur s ++ fs ->
  let last := is_last (tstr s + n) in
  geo (upd_reader (if last then Last i need it else Poll i need (S it)) (next_tail s n) (next_tstr s n) (wstart s) q h x cur' s) p (if last then t + 1 else t) r fs'.
Proof.
  intros G AT H1 H2 HT P ZL HH CF last. pose proof (bound _ _ _ _ _ G) as (B1 & B2 & B3). pose proof (pend_len _ _ _ _ _ _ P) as PL. pose proof (g_pc _ _ _ _ _ G) as GP. rewrite AT in GP. pose proof N_pos as NP.
  destruct G as [g1 g2 g3 g4 g5 g6 g7 g8 g9 g10 g11 g12 g13 g14 g15]. destruct g5 as (g5a & g5b). destruct g11 as (g11a & g11b). pose proof (zlen_nonneg q) as ZQ.
  pose proof (move_arith N t (tstr s) n (k s * N + used s) (k s) (used s) p NP H1 ltac:(slia) H2 ltac:(slia) eq_refl g11a g5b g10) as (M1 & M2 & M3). fold (is_last (tstr s + n)) in M1, M2, M3. fold last in M1, M2, M3.
  unfold next_tail, next_tstr. fold last. constructor; fields; auto.
  - destruct last; [|exact g2]. rewrite g2. rewrite Zplus_mod_idemp_l. reflexivity.
  - slia.
  - destruct last; [slia|exact GP].
  - intro K. destruct last eqn:L; [|auto]. now destruct (K (HT L)).
  - split; [apply g9|]. intros j Hj. apply g9. slia.
  - rewrite M1. exact P.
  - slia.
  - destruct last; discriminate.
  - rewrite g15. now rewrite CF.
Qed.
Lemma do_completion_ok s i need it w q : inv s -> at_ s = Poll i need it -> cq s = w :: q -> c_ok w = true -> do_completion sc c i need it (c_cnt w) q s = Blocked \/ exists s', do_completion sc c i need it (c_cnt w) q s = Ok s' /\ inv s'.
Proof.
  intros I AT CQ OK. pose proof (run_reachable s I) as Re. destruct I as [(p & t & r & fs & G) IB IE IP IR IG IO II]. pose proof N_pos as NP. pose proof St_pos. rewrite AT in *. cbn [inside notified polled] in *. destruct (II eq_refl) as (NST & F & NS). pose proof (g_pc _ _ _ _ _ G) as GP. rewrite AT in GP. pose proof (g_tstr _ _ _ _ _ G) as GT. pose proof (g_taken _ _ _ _ _ G) as T. pose proof (g_held _ _ _ _ _ G) as GH.
  assert (ZL : zlen (cq s) = 1 + zlen q) by (rewrite CQ, zlen_cons; lia).
  pose proof (g_pend _ _ _ _ _ G) as P. rewrite CQ in P. cbn [pend] in P. rewrite OK in P. destruct P as (n & len & fl & EC & HL & Hn & HQ & P).
  assert (QM : (t * N + tstr s) mod N = tstr s) by (rewrite Z.add_comm, Z.mod_add, Z.mod_small by lia; reflexivity). rewrite QM in HQ.
  destruct (decode_cnt fl n len ltac:(lia) HL) as (D1 & D2 & D3). rewrite <- EC in D1, D2, D3. unfold do_completion. rewrite D1, D2, D3. fold (is_last (tstr s + n)). destruct (Z.ltb_spec N (tstr s + n)); [lia|].
  destruct (is_last (tstr s + n) && negb (early c) && negb (todo s =? 0)%nat) eqn:BL; [now left|right].
  assert (HT : is_last (tstr s + n) = true -> todo s = 0%nat). { intro L. rewrite L, Ea in BL. cbn [andb negb] in BL. destruct (Nat.eqb_spec (todo s) 0) as [Z0|]; [exact Z0|discriminate]. }
  fold (next_tail s n). fold (next_tstr s n). destruct fl.
  - eexists. split; [reflexivity|]. pose proof (move_ok s p t r fs i need it n q fs (held s + 1) (wk s) (cur s) G AT Hn HQ HT P ZL ltac:(slia) eq_refl) as G'. cbv zeta in G'. constructor; fields; auto.
    + eexists _, _, _, _. exact G'.
    + destruct (is_last _); exact IE.
    + destruct (is_last _); discriminate.
    + destruct (is_last _); discriminate.
    + destruct (is_last _); discriminate.
  - destruct P as (LB & fs' & -> & P). pose proof (pend_len _ _ _ _ _ _ P) as PL. pose proof (zlen_nonneg q).
    destruct (read_ok s p t r _ n len G GP Hn HQ ltac:(slia) ltac:(slia)) as (MR & AD). rewrite MR, AD. set (f := load (mem s) (addr (t * N + tstr s)) len) in *.
    assert (BF : bytes_ok f) by (rewrite T in IB; apply Forall_app in IB as (_ & IB); apply Forall_app in IB as (_ & IB); now inversion IB).
    assert (BC : Forall bytes_ok (cur s ++ [f])). { rewrite T in IB; apply Forall_app in IB as (_ & IB); apply Forall_app in IB as (IB & _). apply Forall_app. auto. }
    assert (CF : (cur s ++ [f]) ++ fs' = cur s ++ f :: fs') by (rewrite <- app_assoc; reflexivity).
    rewrite frame_fed by assumption. destruct (IbvRecvProofs.fed_ok sc Cf _ _ _ Re (IbvRecvProofs.pk_decoded rc _ BC) NST) as (x & st' & rs' & F' & BE & S & _ & X).
    assert (Fx : feed sc (wk s) (pk f) = Some x). { rewrite flat_map_app, feed_app, F in F'. cbn [flat_map] in F'. rewrite app_nil_r in F'. exact F'. }
    rewrite Fx. cbn [with_flag option_map]. destruct (is_stopped x) eqn:SX.
    + pose proof (move_ok s p t r _ i need it n q fs' 0 x (cur s ++ [f]) G AT Hn HQ HT P ZL ltac:(slia) CF) as G'. cbv zeta in G'. apply (leave_ok need _ _ _ _ _ G'); fields; auto; try congruence.
      * destruct (is_last _); slia.
      * intros ->. split; [apply IE; reflexivity|congruence].
    + pose proof (move_ok s p t r _ i need it n q fs' (held s + 1) x (cur s ++ [f]) G AT Hn HQ HT P ZL ltac:(slia) CF) as G'. cbv zeta in G'. eexists. split; [reflexivity|]. constructor; fields; auto.
      * eexists _, _, _, _. exact G'.
      * destruct (is_last _); exact IE.
      * destruct (is_last _); discriminate.
      * destruct (is_last _); discriminate.
      * destruct (is_last _); discriminate.
Qed.
Lemma release_ok s i need nd it : inv s -> at_ s = Poll i need it -> (nd = true \/ nd = need /\ cq s = []) -> inv (release (Iter (S i) nd) s).
Proof.
  intros [(p & t & r & fs & G) IB IE IP IR IG IO II] AT H. rewrite AT in *. constructor; fields; auto; try discriminate.
  - exists p, t, r, fs. destruct G as [g1 g2 g3 g4 g5 g6 g7 g8 g9 g10 g11 g12 g13 g14 g15]. rewrite AT in *. constructor; fields; auto. slia.
  - intro K. destruct H as [-> |(-> & _)]; [discriminate|auto].
  - intros K C. destruct H as [-> |(_ & Z)]; [discriminate|congruence].
Qed.
Lemma do_poll_ok s i need it : inv s -> at_ s = Poll i need it -> do_poll sc c i need it s = Blocked \/ exists s', do_poll sc c i need it s = Ok s' /\ inv s'.
Proof.
  intros I AT. unfold do_poll. destruct (max_iter <=? it)%nat; [right; eexists; split; [reflexivity|]; apply (release_ok s i need true it I AT); auto|]. destruct (cq s) as [|w q] eqn:CQ; [right; eexists; split; [reflexivity|]; apply (release_ok s i need need it I AT); auto|].
  destruct (c_ok w) eqn:OK; [now apply do_completion_ok|]. right. eexists. split; [reflexivity|]. destruct I as [(p & t & r & fs & G) IB IE IP IR IG IO II]. rewrite AT in *. constructor; fields; auto; try discriminate.
  assert (ZL : zlen (cq s) = 1 + zlen q) by (rewrite CQ, zlen_cons; lia). exists p, t, r, fs. destruct G as [g1 g2 g3 g4 g5 g6 g7 g8 g9 g10 g11 g12 g13 g14 g15]. rewrite AT in *. constructor; fields; auto; try discriminate; [|slia].
  rewrite CQ in g12. cbn [pend] in g12. rewrite OK in g12. destruct g12 as (D & FE & -> & QL). pose proof (zlen_nonneg q). rewrite zlen_cons in QL. destruct q as [|w' q]; cbn [pend].
  - rewrite D. split; [reflexivity|]. split; [slia|discriminate].
  - inversion FE as [|? ? E1 E2]. rewrite E1. split; [exact D|]. split; [exact E2|]. split; [reflexivity|slia].
Qed.
Lemma last_ok s i need it : inv s -> at_ s = Last i need it -> inv (release (Repost i need it) s).
Proof.
  intros [(p & t & r & fs & G) IB IE IP IR IG IO II] AT. rewrite AT in *. constructor; fields; auto; try discriminate.
  exists p, t, r, fs. destruct G as [g1 g2 g3 g4 g5 g6 g7 g8 g9 g10 g11 g12 g13 g14 g15]. rewrite AT in *. constructor; fields; auto. slia.
Qed.
Lemma enter_ok s ev : inv s -> inside (at_ s) = false -> at_ s <> Gone -> inv (enter ev s).
Proof.
  intros I NI NG. unfold enter. destruct I as [(p & t & r & fs & G) IB IE IP IR IG IO II].
  assert (TR : t = r) by (pose proof (g_pc _ _ _ _ _ G) as GP; destruct (at_ s); try discriminate; auto; now destruct NG). assert (HZ : held s = 0) by (apply (g_rel _ _ _ _ _ G); destruct (at_ s); auto; discriminate).
  destruct (st_stopped (str s)) eqn:ST.
  - constructor; fields; auto; try discriminate. exists p, t, r, fs. destruct G as [g1 g2 g3 g4 g5 g6 g7 g8 g9 g10 g11 g12 g13 g14 g15]. constructor; fields; auto.
  - constructor; fields; auto; try discriminate. exists p, t, r, fs. destruct G as [g1 g2 g3 g4 g5 g6 g7 g8 g9 g10 g11 g12 g13 g14 g15]. constructor; fields; auto. rewrite g15. now rewrite (IO NI).
Qed.
Lemma user_ok s stp : inv s -> inside (at_ s) = false -> exists s', step_user sc stp s = Ok s' /\ inv s'.
Proof.
  intros I NI. pose proof (run_reachable s I) as Re. destruct I as [(p & t & r & fs & G) IB IE IP (ops & M & D & R) IG IO II]. set (o := if stp then Stop else Flush). assert (Do : op_decoded o) by (unfold o; destruct stp; exact Logic.I).
  destruct (step_some sc ops _ _ o Cf D Do R) as (st & rr & S). unfold step_user. fold o. rewrite S. eexists. split; [reflexivity|].
  constructor; fields; auto; try congruence.
  - exists p, t, r, fs. destruct G as [g1 g2 g3 g4 g5 g6 g7 g8 g9 g10 g11 g12 g13 g14 g15]. constructor; fields; auto. unfold all_frames in *. rewrite flat_map_app. cbn [flat_map frames_of]. now rewrite !app_nil_r.
  - exists (ops ++ [o]). split; [|split].
    + apply Forall2_app; [exact M|]. constructor; [constructor|constructor].
    + apply Forall_app; auto.
    + now rewrite InprocProofs.run_snoc, R, S.
  - intro K. apply IG in K. pose proof (C20_after_stop sc _ _ [o] Re K) as (s2 & R2 & N2 & _); [auto|]. cbn [run] in R2. rewrite S in R2. injection R2 as -> _. exact N2.
Qed.
Lemma inv_init : inv (init sc c).
Proof.
  pose proof N_pos as NP. pose proof W_pos as WP. pose proof (mo_room c Mo). constructor; unfold init; fields; auto; try discriminate; [|exists []; repeat split; constructor].
  exists 0, 0, 0, []. constructor; fields; auto; try slia.
  - unfold zlen. rewrite repeat_length. split; [lia|]. intros j Hj. lia.
  - cbn [pend]. split; [reflexivity|]. split; [slia|intros _; slia].
  - change (zlen (@nil comp)) with 0. slia.
Qed.
Lemma next_ok s l : inv s -> sane l -> MprqModel.next sc c s l = Blocked \/ exists s', MprqModel.next sc c s l = Ok s' /\ inv s'.
Proof.
  intros I Sa. destruct l as [|f n|n len| | | |stp].
  - now apply start_ok.
  - cbn [MprqModel.next]. destruct (dead s) eqn:D; [now left|]. destruct (Z.ltb_spec 0 (avail s)); [|now left]. destruct (Z.leb_spec 1 n); [|now left]. destruct (Z.leb_spec (used s + n) N); [|now left]. destruct (Z.leb_spec (zlen f) (n * St)); [|now left]. destruct (Z.ltb_spec (zlen f) 65536); [|now left]. right. now apply recv_ok.
  - cbn [MprqModel.next]. destruct (dead s) eqn:D; [now left|]. destruct (Z.ltb_spec 0 (avail s)); [|now left]. destruct (Z.leb_spec 1 n); [|now left]. destruct (Z.leb_spec (used s + n) N); [|now left]. destruct (Z.leb_spec 0 len); [|now left]. destruct (Z.ltb_spec len 65536); [|now left]. right. apply fill_ok; auto.
  - cbn [MprqModel.next]. destruct (Z.ltb_spec 0 (avail s)); [|now left]. right. now apply err_ok.
  - cbn [MprqModel.next]. destruct (at_ s) eqn:E.
    + destruct (event s); [|now left]. right. eexists. split; [reflexivity|]. apply enter_ok; auto; rewrite E; [reflexivity|discriminate].
    + right. eexists. split; [reflexivity|]. apply enter_ok; auto; rewrite E; [reflexivity|discriminate].
    + right. now apply do_iter_ok.
    + now apply do_poll_ok.
    + right. eexists. split; [reflexivity|]. now apply last_ok.
    + right. now apply repost_ok.
    + now left.
  - cbn [MprqModel.next]. destruct (at_ s) eqn:E; try now left. right. destruct (st_stopped (str s)) eqn:ST.
    + eexists. split; [reflexivity|]. pose proof (enter_ok s false I) as X. rewrite E in X. unfold enter in X. rewrite ST in X. apply X; [reflexivity|discriminate].
    + destruct I as [(p & t & r & fs & G) IB IE IP IR IG IO II]. pose proof (g_pc _ _ _ _ _ G) as GP. pose proof (g_rel _ _ _ _ _ G) as GR. rewrite E in *. specialize (GR eq_refl). apply (leave_ok true _ p t r fs); fields; auto; try discriminate.
      destruct G as [g1 g2 g3 g4 g5 g6 g7 g8 g9 g10 g11 g12 g13 g14 g15]. constructor; fields; auto. rewrite g15, (IO eq_refl). reflexivity.
  - cbn [MprqModel.next]. destruct (at_ s) eqn:E; try (left; reflexivity); right; (apply user_ok; [exact I|now rewrite E]).
Qed.
Lemma reach_inv s : reach s -> inv s.
Proof. induction 1 as [|s l s' R IH Sa E]; [apply inv_init|]. destruct (next_ok s l IH Sa) as [B|(s2 & E2 & I2)]; [congruence|]. rewrite E in E2. injection E2 as <-. exact I2. Qed.
End Inv.
