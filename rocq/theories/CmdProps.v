(** C80: the tools listen where they are told to.  C81: the benchmark in memory. *)
From Coq Require Import ZArith List Bool Lia Permutation.
From Verif Require Import CmdModel.
Import ListNotations.
Open Scope Z_scope.

(** ** What the command line means *)

(** [host:port], split at the last colon; where an address is not needed also [port] or
    [:port]. *)
Definition endpoint (passive : bool) (s : str) (hp : str * str) : Prop :=
  ~ In 58 (snd hp) /\
  ((fst hp <> [] /\ s = fst hp ++ 58 :: snd hp) \/ (passive = true /\ fst hp = [] /\ (s = snd hp \/ s = 58 :: snd hp))).

Definition digits (ds : str) : Prop := forall c, In c ds -> 48 <= c <= 57.
(** Decimal notation, from the last digit. *)
Inductive decimal : str -> Z -> Prop :=
| dec_nil : decimal [] 0
| dec_snoc ds v c : decimal ds v -> 48 <= c <= 57 -> decimal (ds ++ [c]) (10 * v + (c - 48)).
(** A number of 16 bits, maybe with a sign. *)
Definition port16 (p : str) : Prop := exists sg ds v, (sg = [] \/ sg = [43] \/ sg = [45]) /\ p = sg ++ ds /\ ds <> [] /\ decimal ds v /\ v < 65536.

Inductive source := File (name : str) | Net (hp : str * str).
(** Where files are allowed, sources that do not end in a port are files. *)
Definition wanted (allow_pcap : bool) (s : str) (src : source) : Prop :=
  match src with
  | File n => allow_pcap = true /\ n = s /\ (forall hp, endpoint true s hp -> ~ port16 (snd hp))
  | Net hp => endpoint true s hp /\ (allow_pcap = true -> port16 (snd hp))
  end.
Definition sources_of (r : reader) : list source :=
  match r with
  | RPcap f => [File f]
  | RTcp ep _ _ => [Net ep]
  | RUdp ep _ _ _ => [Net ep]
  | RIbv eps _ _ _ => map Net eps
  end.
Definition is_file (s : source) : bool := match s with File _ => true | Net _ => false end.
(** The reader is of the kind asked for, with the sizes asked for. *)
Definition obeys (resolve : str * str -> option bool) (o : options) (r : reader) : Prop :=
  match r with
  | RPcap _ => True
  | RTcp _ m b => tcp o = true /\ max_packet_size o = Some m /\ buffer_size o = Some b
  | RUdp ep m b i => tcp o = false /\ ibv o = false /\ max_packet_size o = Some m /\ buffer_size o = Some b /\
                     (i = None <-> (bind o = [] \/ resolve ep = Some false)) /\ (forall a, i = Some a -> a = bind o)
  | RIbv eps m b i => tcp o = false /\ ibv o = true /\ max_packet_size o = Some m /\ buffer_size o = Some b /\ i = bind o /\ i <> []
  end.

(** ** Splitting *)

Lemma rfind_none s : rfind colon s = None <-> ~ In 58 s.
Proof.
  induction s as [|x t IH]; cbn [rfind]; [cbn; tauto|]. destruct (rfind colon t) as [i|] eqn:E.
  - split; [discriminate|]. intro H. exfalso. apply H. right. destruct (in_dec Z.eq_dec 58 t) as [X|X]; [exact X|]. apply IH in X. discriminate.
  - destruct (Z.eqb_spec x colon) as [->|N].
    + split; [discriminate|]. intro H. elim H. now left.
    + split; [|reflexivity]. intros _ [H|H]; [now elim N|]. now apply IH.
Qed.
Lemma rfind_app h p : ~ In 58 p -> rfind colon (h ++ 58 :: p) = Some (length h).
Proof.
  intro H. induction h as [|x h IH]; cbn [app rfind length].
  - apply rfind_none in H. now rewrite H.
  - now rewrite IH.
Qed.
Lemma rfind_some s i : rfind colon s = Some i -> exists h p, s = h ++ 58 :: p /\ ~ In 58 p /\ length h = i.
Proof.
  revert i. induction s as [|x t IH]; intros i E; cbn [rfind] in E; [discriminate|]. destruct (rfind colon t) as [j|] eqn:F.
  - injection E as <-. destruct (IH j eq_refl) as (h & p & -> & N & L). exists (x :: h), p. cbn [length app]. auto.
  - destruct (Z.eqb_spec x colon) as [->|]; [|discriminate]. injection E as <-. exists [], t. apply rfind_none in F. auto.
Qed.
Lemma split_at h p : firstn (length h) (h ++ 58 :: p) = h /\ skipn (length h + 1) (h ++ 58 :: p) = p.
Proof.
  split; [rewrite firstn_app, Nat.sub_diag, firstn_all; cbn; apply app_nil_r|]. induction h as [|x h IH]; [reflexivity|exact IH].
Qed.

(** An endpoint of the command line is split as its notation says, also if the host contains
    colons, and is refused exactly if it has not that form. *)
Theorem C80_split : forall passive s hp, parse_one passive s = Some hp <-> endpoint passive s hp.
Proof.
  intros passive s [h p]. unfold parse_one, endpoint. cbn [fst snd]. destruct (rfind colon s) as [i|] eqn:E.
  - destruct (rfind_some s i E) as (h' & p' & -> & N & L). subst i. destruct (split_at h' p') as [S1 S2]. destruct h' as [|x h'].
    + cbn [length app skipn]. split.
      * destruct passive; [|discriminate]. intro H. injection H as <- <-. split; [exact N|]. right. auto.
      * intros [N' [[Hh E']|(-> & -> & [E'|E'])]].
        -- destruct h as [|y h]; [now elim Hh|]. cbn [app] in E'. injection E' as _ E'. elim N. rewrite E'. apply in_or_app. right. now left.
        -- elim N'. rewrite <- E'. now left.
        -- injection E' as <-. reflexivity.
    + cbn [length] in *. rewrite S1, S2. split.
      * intro H. injection H as <- <-. split; [exact N|]. left. split; [discriminate|reflexivity].
      * intros [N' [[Hh E']|(-> & -> & [E'|E'])]].
        -- assert (R := rfind_app h p N'). rewrite <- E', (rfind_app (x :: h') p' N) in R. injection R as R.
           apply (f_equal (firstn (length (x :: h')))) in E' as E1. rewrite (proj1 (split_at _ _)) in E1. cbn [length] in E1. rewrite R in E1. rewrite (proj1 (split_at h p)) in E1.
           apply (f_equal (skipn (length (x :: h') + 1))) in E' as E2. rewrite (proj2 (split_at _ _)) in E2. cbn [length] in E2. rewrite R in E2. rewrite (proj2 (split_at h p)) in E2. now subst.
        -- elim N'. rewrite <- E'. apply in_or_app. right. now left.
        -- elim N'. cbn [app] in E'. injection E' as _ <-. apply in_or_app. right. now left.
  - apply rfind_none in E. split.
    + destruct passive; [|discriminate]. intro H. injection H as <- <-. split; [exact E|]. right. auto.
    + intros [N' [[Hh ->]|(-> & -> & [->| ->])]]; [|reflexivity|].
      * elim E. apply in_or_app. right. now left.
      * elim E. now left.
Qed.
Print Assumptions C80_split.
(** "::1:8888" *)
Example C80_split_ex : endpoint false [58;58;49;58;56;56;56;56] ([58;58;49], [56;56;56;56]).
Proof. apply C80_split. reflexivity. Qed.

(** Several endpoints keep their order; one bad endpoint refuses all. *)
Theorem C80_all : forall passive l r, parse_endpoints passive l = Some r <-> Forall2 (endpoint passive) l r.
Proof.
  intros passive. induction l as [|s t IH]; intro r; cbn [parse_endpoints].
  - split; intro H; [injection H as <-; constructor|]. now inversion H.
  - destruct (parse_one passive s) as [hp|] eqn:E.
    + destruct (parse_endpoints passive t) as [r'|].
      * split; intro H.
        -- injection H as <-. constructor; [now apply C80_split|]. now apply IH.
        -- inversion H as [|a b c d H1 H2]; subst. apply C80_split in H1. apply IH in H2. congruence.
      * split; intro H; [discriminate|]. inversion H as [|a b c d H1 H2]; subst. apply IH in H2. discriminate.
    + split; intro H; [discriminate|]. inversion H as [|a b c d H1 H2]; subst. apply C80_split in H1. congruence.
Qed.
Print Assumptions C80_all.
Example C80_all_ex : parse_endpoints false [[97;58;49];[98;58;58;50]] = Some [([97],[49]);([98;58],[50])] /\ parse_endpoints false [[97;58;49];[58;50]] = None.
Proof. split; reflexivity. Qed.

(** ** Ports *)

Lemma value_snoc ds c : value (ds ++ [c]) = 10 * value ds + (c - 48).
Proof. unfold value. now rewrite fold_left_app. Qed.
Lemma decimal_digits ds v : decimal ds v -> digits ds /\ v = value ds /\ 0 <= v.
Proof.
  induction 1 as [|ds v c H (D & -> & P) Hc]; [split; [intros c []|split; [reflexivity|lia]]|]. rewrite value_snoc. split; [|split; [reflexivity|lia]].
  intros x Hx. apply in_app_or in Hx as [Hx|[<-|[]]]; auto.
Qed.
Lemma digits_decimal ds : digits ds -> decimal ds (value ds).
Proof.
  induction ds as [|c ds IH] using rev_ind; intro D; [constructor|]. rewrite value_snoc. constructor; [apply IH; intros x Hx|]; apply D; apply in_or_app; [now left|right; now left].
Qed.
Lemma is_digit_spec c : is_digit c = true <-> 48 <= c <= 57.
Proof. unfold is_digit. rewrite andb_true_iff, !Z.leb_le. reflexivity. Qed.
Lemma digits_spec ds : forallb is_digit ds = true <-> digits ds.
Proof. rewrite forallb_forall. unfold digits. split; intros H c Hc; apply is_digit_spec; auto. Qed.
Lemma lexical_spec p : lexical_u16 p = true <-> port16 p.
Proof.
  assert (G : forall ds, (match ds with [] => false | _ => forallb is_digit ds && (value ds <? 65536) end) = true <-> (ds <> [] /\ exists v, decimal ds v /\ v < 65536)).
  { intro ds. destruct ds as [|d ds]; [split; [discriminate|intros [H _]; now elim H]|]. rewrite andb_true_iff, digits_spec, Z.ltb_lt. split.
    - intros [D V]. split; [discriminate|]. exists (value (d :: ds)). split; [now apply digits_decimal|exact V].
    - intros [_ (v & D & V)]. apply decimal_digits in D as (D & -> & _). auto. }
  unfold lexical_u16, port16. cbv zeta. split.
  - intro H. apply G in H as [N (v & D & V)]. destruct p as [|c t]; [now elim N|]. destruct (Z.eqb_spec c 43) as [->|N1]; [|destruct (Z.eqb_spec c 45) as [->|N2]]; cbn [orb] in *.
    + exists [43], t, v. auto.
    + exists [45], t, v. auto.
    + exists [], (c :: t), v. auto.
  - intros (sg & ds & v & Hs & -> & N & D & V). apply G. destruct Hs as [-> |[-> | ->]]; cbn [app]; try (cbn; eauto; fail).
    destruct ds as [|c t]; [now elim N|]. assert (X := proj1 (decimal_digits _ _ D) c (or_introl eq_refl)).
    destruct (Z.eqb_spec c 43); [lia|]. destruct (Z.eqb_spec c 45); [lia|]. cbn [orb]. eauto.
Qed.
Lemma endpoint_fun b s hp hp' : endpoint b s hp -> endpoint b s hp' -> hp = hp'.
Proof. intros H H'. apply C80_split in H, H'. congruence. Qed.
Lemma port_of s : exists hp, parse_one true s = Some hp /\ snd hp = match rfind colon s return str with Some i => skipn (i + 1) s | None => s end.
Proof. unfold parse_one. destruct (rfind colon s) as [[|i]|]; eexists; split; try reflexivity. Qed.

(** ** Readers *)

Lemma loop_sources resolve o ap : forall l eps rs eps' , add_loop resolve o ap l eps = (rs, eps', Done) ->
  exists src nets, Forall2 (wanted ap) l src /\ eps' = eps ++ nets /\ Permutation (flat_map sources_of rs ++ map Net nets) src /\
    ((tcp o = true \/ ibv o = false) -> nets = [] /\ flat_map sources_of rs = src) /\
    (tcp o = false -> ibv o = true -> flat_map sources_of rs = filter is_file src /\ map Net nets = filter (fun s => negb (is_file s)) src) /\
    (forall r, In r rs -> obeys resolve o r).
Proof.
  induction l as [|e t IH]; intros eps rs eps' E; cbn [add_loop] in E.
  - injection E as <- <-. exists [], []. rewrite app_nil_r. cbn. split; [constructor|]. split; [reflexivity|]. split; [constructor|]. split; [auto|]. split; [auto|]. intros r [].
  - destruct (port_of e) as (hp & P1 & P2). cbv zeta in E. rewrite <- P2 in E. assert (EP := P1). apply C80_split in EP.
    destruct (ap && negb (lexical_u16 (snd hp))) eqn:IP.
    + apply andb_true_iff in IP as [-> NP]. destruct (add_loop resolve o true t eps) as [[rs1 eps1] out] eqn:A. injection E as <- <- ->.
      destruct (IH _ _ _ A) as (src & nets & F & -> & P & Q & R & S). exists (File e :: src), nets. split.
      { constructor; [|exact F]. cbn [wanted]. split; [reflexivity|]. split; [reflexivity|]. intros hp' H' Hp. rewrite (endpoint_fun _ _ _ _ H' EP) in Hp. apply lexical_spec in Hp. rewrite Hp in NP. discriminate. }
      cbn [app flat_map sources_of filter is_file negb]. split; [reflexivity|]. split; [now constructor|]. split; [intro H; destruct (Q H) as [-> ->]; auto|]. split; [intros H1 H2; destruct (R H1 H2) as [-> ->]; auto|].
      intros r [<-|Hr]; [exact Logic.I|auto].
    + assert (W : wanted ap e (Net hp)).
      { cbn [wanted]. split; [exact EP|]. intros ->. cbn [andb] in IP. apply lexical_spec. now destruct (lexical_u16 (snd hp)). }
      rewrite P1 in E. destruct (resolve hp) as [v4|] eqn:RS; [|discriminate]. destruct (negb (tcp o) && ibv o) eqn:TI.
      * apply andb_true_iff in TI as [T I]. apply negb_true_iff in T. destruct (add_loop resolve o ap t (eps ++ [hp])) as [[rs1 eps1] out] eqn:A. injection E as <- <- ->.
        destruct (IH _ _ _ A) as (src & nets & F & -> & P & Q & R & S). exists (Net hp :: src), (hp :: nets). split; [now constructor|]. split; [now rewrite <- app_assoc|].
        split; [cbn [app map]; apply Permutation_sym, Permutation_cons_app, Permutation_sym; exact P|].
        split; [intros [H|H]; congruence|]. split; [|exact S]. intros H1 H2. destruct (R H1 H2) as [E1 E2]. cbn [app map filter is_file negb]. rewrite E1, E2. auto.
      * destruct (max_packet_size o) as [m|] eqn:M; [|discriminate]. destruct (buffer_size o) as [b|] eqn:B; [|discriminate].
        assert (X : forall r, sources_of r = [Net hp] -> obeys resolve o r -> (let '(rs, eps', out) := add_loop resolve o ap t eps in ([r] ++ rs, eps', out)) = (rs, eps', Done) ->
          exists src nets, Forall2 (wanted ap) (e :: t) src /\ eps' = eps ++ nets /\ Permutation (flat_map sources_of rs ++ map Net nets) src /\
          ((tcp o = true \/ ibv o = false) -> nets = [] /\ flat_map sources_of rs = src) /\
          (tcp o = false -> ibv o = true -> flat_map sources_of rs = filter is_file src /\ map Net nets = filter (fun s => negb (is_file s)) src) /\
          (forall r, In r rs -> obeys resolve o r)).
        { intros r Hs Ho E'. destruct (add_loop resolve o ap t eps) as [[rs1 eps1] out] eqn:A. injection E' as <- <- ->.
          destruct (IH _ _ _ A) as (src & nets & F & -> & P & Q & R & S). exists (Net hp :: src), nets. split; [now constructor|]. split; [reflexivity|]. cbn [app flat_map]. rewrite Hs. cbn [app].
          split; [now constructor|]. split; [intro H; destruct (Q H) as [-> ->]; auto|]. split; [intros H1 H2; rewrite H1, H2 in TI; discriminate|]. intros r' [<-|Hr]; auto. }
        destruct (tcp o) eqn:T.
        { apply (X (RTcp hp m b) eq_refl); [cbn; auto|exact E]. }
        cbn [negb andb] in TI. destruct (bind o) as [|y bs] eqn:BD; cbn [negb andb] in E; [rewrite andb_false_r in E|destruct v4; cbn [andb] in E].
        -- apply (X (RUdp hp m b None) eq_refl); [|exact E]. cbn. rewrite T, BD. do 4 (split; [auto|]). split; [|discriminate]. split; auto.
        -- apply (X (RUdp hp m b (Some (y :: bs))) eq_refl); [|exact E]. cbn. rewrite T, BD. do 4 (split; [auto|]). split; [|congruence]. split; [discriminate|]. intros [H|H]; [discriminate|congruence].
        -- apply (X (RUdp hp m b None) eq_refl); [|exact E]. cbn. rewrite T, BD. do 4 (split; [auto|]). split; [|congruence]. split; auto.
Qed.

(** Every source of the command line is served by exactly one reader, of the kind and with
    the sizes asked for; readers are in the order of the sources, except that with ibverbs
    one reader serves all network sources, after the files. *)
Theorem C80_readers : forall resolve o allow_pcap l rs, add_readers resolve o allow_pcap l = (rs, Done) ->
  exists src, Forall2 (wanted allow_pcap) l src /\ Permutation (flat_map sources_of rs) src /\
    (tcp o = true \/ ibv o = false -> flat_map sources_of rs = src /\ length rs = length l) /\
    (tcp o = false -> ibv o = true -> flat_map sources_of rs = filter is_file src ++ filter (fun s => negb (is_file s)) src) /\
    (forall r, In r rs -> obeys resolve o r).
Proof.
  intros resolve o ap l rs E. unfold add_readers in E. destruct (add_loop resolve o ap l []) as [[rs0 eps] out] eqn:A.
  assert (LN : forall l eps rs eps', tcp o = true \/ ibv o = false -> add_loop resolve o ap l eps = (rs, eps', Done) -> length rs = length l).
  { clear. intros l eps rs eps' TI. revert eps rs eps'. induction l as [|e t IH]; intros eps rs eps' E; cbn [add_loop] in E; [now injection E as <- <-|]. cbv zeta in E.
    assert (X : forall r eps, (let '(rs, eps', out) := add_loop resolve o ap t eps in ([r] ++ rs, eps', out)) = (rs, eps', Done) -> length rs = length (e :: t)).
    { intros r eps0 E'. destruct (add_loop resolve o ap t eps0) as [[rs1 eps1] out] eqn:A. injection E' as <- <- ->. cbn [app length]. f_equal. eapply IH; exact A. }
    destruct (ap && _); [eapply X; exact E|]. destruct (parse_one true e) as [hp|]; [|discriminate]. destruct (resolve hp) as [v4|]; [|discriminate].
    destruct (negb (tcp o) && ibv o) eqn:Q; [destruct TI as [TI|TI]; rewrite TI in Q; [discriminate|rewrite andb_false_r in Q; discriminate]|].
    destruct (max_packet_size o); [|discriminate]. destruct (buffer_size o); [|discriminate]. destruct (tcp o); [eapply X; exact E|]. destruct (v4 && _); eapply X; exact E. }
  destruct out; [|destruct eps; discriminate|destruct eps; discriminate]. assert (LN' := fun H => LN l [] rs0 eps H A).
  destruct (loop_sources _ _ _ _ _ _ _ A) as (src & nets & F & -> & P & Q & R & S). cbn [app] in E. exists src. split; [exact F|].
  destruct nets as [|n nets].
  - injection E as <-. cbn [map] in *. rewrite app_nil_r in P. split; [exact P|]. split; [intro H; split; [apply Q, H|apply LN', H]|]. split; [|exact S]. intros H1 H2. destruct (R H1 H2) as [E1 E2]. now rewrite <- E2, app_nil_r.
  - destruct (bind o) as [|y bs] eqn:BD; [discriminate|]. destruct (max_packet_size o) as [m|] eqn:M; [|discriminate]. destruct (buffer_size o) as [b|] eqn:B; [|discriminate]. injection E as <-.
    rewrite flat_map_app. cbn [flat_map sources_of]. rewrite app_nil_r. split; [exact P|]. assert (TI : tcp o = false /\ ibv o = true).
    { destruct (tcp o) eqn:T; [destruct (Q (or_introl eq_refl)); discriminate|]. destruct (ibv o) eqn:I; [auto|destruct (Q (or_intror eq_refl)); discriminate]. }
    destruct TI as [T I]. rewrite T, I. split; [intros [H|H]; discriminate|]. split; [intros _ _; destruct (R T I) as [-> ->]; reflexivity|].
    intros r Hr. apply in_app_or in Hr as [Hr|[<-|[]]]; [auto|]. cbn. rewrite BD. do 4 (split; [auto|]). split; [reflexivity|discriminate].
Qed.
Print Assumptions C80_readers.
Definition ex_o (t i : bool) (b : str) := {| tcp := t; ibv := i; bind := b; max_packet_size := None; buffer_size := None |}.
(** "a:1", "x.pcap" and "7", with ibverbs *)
Example C80_readers_ex : exists o, notify (ex_o false true [49]) = Some o /\
  add_readers (fun _ => Some true) o true [[97;58;49];[120;46;112;99;97;112];[55]] =
    ([RPcap [120;46;112;99;97;112]; RIbv [([97],[49]);([],[55])] 9200 (16 * 1024 * 1024) [49]], Done).
Proof. eexists. split; reflexivity. Qed.
Example C80_readers_tcp_ex : exists o, notify (ex_o true false []) = Some o /\
  add_readers (fun _ => Some true) o true [[97;58;49];[120;46;112;99;97;112];[55]] =
    ([RTcp ([97],[49]) 65536 (208 * 1024); RPcap [120;46;112;99;97;112]; RTcp ([],[55]) 65536 (208 * 1024)], Done).
Proof. eexists. split; reflexivity. Qed.

Lemma loop_total resolve o ap m b : max_packet_size o = Some m -> buffer_size o = Some b -> forall l eps,
  let '(rs, eps', out) := add_loop resolve o ap l eps in
  out <> UB /\ (out = Done <-> (forall s hp, In s l -> wanted ap s (Net hp) -> resolve hp <> None)).
Proof.
  intros M B. induction l as [|e t IH]; intro eps; cbn [add_loop]; [split; [discriminate|]; split; [intros _ s hp []|reflexivity]|].
  destruct (port_of e) as (hp & P1 & P2). cbv zeta. rewrite <- P2. assert (EP := P1). apply C80_split in EP.
  assert (X : forall r eps0, ((exists n, wanted ap e (File n)) \/ resolve hp <> None) -> let '(rs, eps', out) := (let '(rs, eps', out) := add_loop resolve o ap t eps0 in (r ++ rs, eps', out)) in
    out <> UB /\ (out = Done <-> (forall s hp, In s (e :: t) -> wanted ap s (Net hp) -> resolve hp <> None))).
  { intros r eps0 H. specialize (IH eps0). destruct (add_loop resolve o ap t eps0) as [[rs1 eps1] out]. destruct IH as [I1 I2]. split; [exact I1|]. rewrite I2. split.
    - intros K s hp' [<-|Hs] W; [|eapply K; eauto]. destruct W as [W1 W2]. rewrite (endpoint_fun _ _ _ _ W1 EP) in *. destruct H as [(n & -> & _ & H)|H]; [|exact H]. elim (H _ EP). now apply W2.
    - intros K s hp' Hs W. eapply K; [right; exact Hs|exact W]. }
  destruct (ap && negb (lexical_u16 (snd hp))) eqn:IP.
  - apply X. left. exists e. apply andb_true_iff in IP as [-> NP]. split; [reflexivity|]. split; [reflexivity|]. intros hp' H' Hp. rewrite (endpoint_fun _ _ _ _ H' EP) in Hp. apply lexical_spec in Hp. rewrite Hp in NP. discriminate.
  - rewrite P1. destruct (resolve hp) as [v4|] eqn:RS.
    + rewrite M, B. destruct (negb (tcp o) && ibv o); [apply X; right; discriminate|]. destruct (tcp o); [apply X; right; discriminate|]. destruct (v4 && _); apply X; right; discriminate.
    + split; [discriminate|]. split; [discriminate|]. intro K. elim (K e hp); [now left| |exact RS]. split; [exact EP|]. intros ->. cbn [andb] in IP. apply lexical_spec. now destruct (lexical_u16 (snd hp)).
Qed.

(** With options that passed the check nothing undefined happens, and adding the readers
    fails only if a network source cannot be resolved.  Options are refused exactly if
    ibverbs is combined with TCP or lacks an interface; sizes given by the user are kept. *)
Theorem C80_options : forall o,
  (notify o = None <-> ibv o = true /\ (tcp o = true \/ bind o = [])) /\
  forall o', notify o = Some o' ->
    tcp o' = tcp o /\ ibv o' = ibv o /\ bind o' = bind o /\
    (forall m, max_packet_size o = Some m -> max_packet_size o' = Some m) /\ (forall b, buffer_size o = Some b -> buffer_size o' = Some b) /\
    forall resolve ap l, let out := snd (add_readers resolve o' ap l) in
      out <> UB /\ (out = Done <-> (forall s hp, In s l -> wanted ap s (Net hp) -> resolve hp <> None)).
Proof.
  intro o. unfold notify. split.
  - destruct (ibv o), (tcp o), (bind o); cbn; intuition discriminate.
  - intros o' E. destruct (ibv o && match bind o with [] => true | _ => false end) eqn:C1; [discriminate|]. destruct (tcp o && ibv o) eqn:C2; [discriminate|]. injection E as <-. cbn [tcp ibv bind max_packet_size buffer_size].
    do 3 (split; [reflexivity|]). split; [intros m ->; reflexivity|]. split; [intros b ->; reflexivity|]. intros resolve ap l.
    match goal with |- context [add_readers _ ?x] => set (o' := x) end.
    assert (M : exists m, max_packet_size o' = Some m) by (unfold o'; cbn; destruct (max_packet_size o); eauto). assert (B : exists b, buffer_size o' = Some b) by (unfold o'; cbn; destruct (buffer_size o); eauto).
    destruct M as [m M], B as [b B]. assert (L := loop_total resolve o' ap m b M B l []). cbv zeta. unfold add_readers. rewrite M, B.
    destruct (add_loop resolve o' ap l []) as [[rs eps] out] eqn:A. destruct out; cbn [snd]; try (destruct eps; exact L).
    destruct eps as [|x eps]; [exact L|]. destruct (bind o') as [|y bs] eqn:BD; [|exact L]. exfalso.
    destruct (loop_sources _ _ _ _ _ _ _ A) as (src & nets & _ & EN & _ & Q & _). cbn [app] in EN. subst nets.
    change (tcp o') with (tcp o) in Q. change (ibv o') with (ibv o) in Q. change (bind o') with (bind o) in BD. rewrite BD in C1.
    destruct (ibv o); [cbn in C1; discriminate|]. destruct (Q (or_intror eq_refl)); discriminate.
Qed.
Print Assumptions C80_options.
Example C80_options_ex : notify (ex_o false true []) = None /\ notify (ex_o true true [49]) = None /\
  exists o, notify (ex_o false false [49]) = Some o /\ snd (add_readers (fun hp => match fst hp with [97] => None | _ => Some true end) o true [[97;58;49]]) = Throws /\
    add_readers (fun _ => Some false) o true [[97;58;49]] = ([RUdp ([97],[49]) 9200 (8 * 1024 * 1024) None], Done) /\ snd (add_readers (fun _ => Some true) (ex_o false false []) true [[55]]) = UB.
Proof. split; [reflexivity|]. split; [reflexivity|]. eexists. repeat split. Qed.

(** ** Python *)

Lemma py_tail_digits ds : forall a, digits ds -> py_tail a false ds = Some (fold_left (fun a c => 10 * a + (c - 48)) ds a).
Proof.
  induction ds as [|c ds IH]; intros a D; [reflexivity|]. cbn [py_tail fold_left]. assert (X := D c (or_introl eq_refl)). apply is_digit_spec in X. rewrite X. apply IH. intros x Hx. apply D. now right.
Qed.
Lemma py_num_digits ds : ds <> [] -> digits ds -> py_num ds = Some (value ds).
Proof.
  destruct ds as [|c ds]; intros N D; [now elim N|]. unfold py_num. assert (X := D c (or_introl eq_refl)). apply is_digit_spec in X. rewrite X. rewrite py_tail_digits by (intros x Hx; apply D; now right). reflexivity.
Qed.
Lemma lstrip_id s : (forall c, In c s -> py_space c = false) -> lstrip s = s.
Proof. destruct s as [|c t]; intro H; [reflexivity|]. cbn [lstrip]. now rewrite (H c (or_introl eq_refl)). Qed.
Lemma strip_id s : (forall c, In c s -> py_space c = false) -> strip s = s.
Proof. intro H. unfold strip. rewrite (lstrip_id s H), lstrip_id, rev_involutive; [reflexivity|]. intros c Hc. apply H. now apply in_rev. Qed.

(** What is a network source for the C++ tools is one for the Python tools, with the same
    host, and with the same port if it has no sign. *)
Theorem C80_python : forall s hp, wanted true s (Net hp) ->
  exists v, py_parse s = Some (fst hp, v) /\ (forall u, decimal (snd hp) u -> v = u).
Proof.
  intros s [h p] [EP W]. specialize (W eq_refl). cbn [fst snd] in *. assert (PI : exists v, py_int p = Some v /\ (forall u, decimal p u -> v = u)).
  { destruct W as (sg & ds & v & Hs & -> & N & D & V). destruct (decimal_digits _ _ D) as (DD & -> & _).
    assert (SP : forall c, In c (sg ++ ds) -> py_space c = false).
    { intros c Hc. assert (c = 43 \/ c = 45 \/ 48 <= c <= 57) as Hr by (apply in_app_or in Hc as [Hc|Hc]; [destruct Hs as [-> |[-> | ->]]; [destruct Hc|destruct Hc as [<-|[]]|destruct Hc as [<-|[]]]; auto|auto]).
      unfold py_space. destruct (Z.leb_spec 9 c), (Z.leb_spec c 13), (Z.leb_spec 28 c), (Z.leb_spec c 32); cbn; try reflexivity; lia. }
    unfold py_int. rewrite (strip_id _ SP). destruct Hs as [-> |[-> | ->]]; cbn [app].
    - destruct ds as [|c t]; [now elim N|]. assert (X := DD c (or_introl eq_refl)). destruct (Z.eqb_spec c 43); [lia|]. destruct (Z.eqb_spec c 45); [lia|]. rewrite (py_num_digits (c :: t) N DD). eexists. split; [reflexivity|].
      intros u Hu. apply decimal_digits in Hu. symmetry. apply Hu.
    - cbn. rewrite (py_num_digits ds N DD). eexists. split; [reflexivity|]. intros u Hu. apply decimal_digits in Hu as [Hu _]. specialize (Hu 43 (or_introl eq_refl)). lia.
    - cbn. rewrite (py_num_digits ds N DD). eexists. split; [reflexivity|]. intros u Hu. apply decimal_digits in Hu as [Hu _]. specialize (Hu 45 (or_introl eq_refl)). lia. }
  destruct PI as (v & PI & PU). exists v. split; [|exact PU]. unfold py_parse. unfold endpoint in EP. cbn [fst snd] in EP. destruct EP as [N [[Hh ->]|(_ & -> & [->| ->])]].
  - rewrite (rfind_app h p N). destruct (split_at h p) as [-> ->]. now rewrite PI.
  - apply rfind_none in N. rewrite N. now rewrite PI.
  - change (58 :: p) with ([] ++ 58 :: p). rewrite (rfind_app [] p N). cbn [length app Nat.add skipn firstn]. now rewrite PI.
Qed.
Print Assumptions C80_python.
Example C80_python_ex : wanted true [58;58;49;58;56;48] (Net ([58;58;49],[56;48])) /\ py_parse [58;58;49;58;56;48] = Some ([58;58;49], 80).
Proof. split; [|reflexivity]. split; [now apply C80_split|]. intros _. apply lexical_spec. reflexivity. Qed.

(** The two disagree about other sources: "70000" (or "1_0") is a file for the C++ tool and
    a port for the Python tool. *)
Theorem C80_python_refuted : exists s v, wanted true s (File s) /\ py_parse s = Some ([], v) /\ 65536 <= v.
Proof.
  exists [55;48;48;48;48], 70000. split; [|split; [reflexivity|lia]]. split; [reflexivity|]. split; [reflexivity|]. intros hp H P. assert (E : endpoint true [55;48;48;48;48] ([], [55;48;48;48;48])) by now apply C80_split.
  rewrite (endpoint_fun _ _ _ _ H E) in P. apply lexical_spec in P. discriminate.
Qed.
Print Assumptions C80_python_refuted.

(** ** C81 *)

Definition payload (hs : list heap) : Z := fold_right (fun h a => match h with HData n => n + a | HEnd => a end) 0 hs.
Lemma payload_repeat n k : payload (repeat (HData n) k ++ [HEnd]) = n * Z.of_nat k.
Proof. induction k as [|k IH]; [cbn; lia|]. cbn [repeat app]. cbn [payload fold_right]. fold (payload (repeat (HData n) k ++ [HEnd])). rewrite IH. lia. Qed.
Lemma build_spec err n num : forall k i, 0 <= i -> i + Z.of_nat (S k) = num -> build_loop err n num i (S k) = (repeat (HData n) k ++ [HEnd], false).
Proof.
  induction k as [|k IH]; intros i Hi E.
  - cbn [build_loop]. destruct (Z.ltb_spec i (num - 1)); [lia|]. destruct (err i); reflexivity.
  - remember (S k) as k' eqn:K. cbn [build_loop]. destruct (Z.ltb_spec i (num - 1)); [|lia]. rewrite (IH (i + 1)) by lia. subst k'. destruct (err i); reflexivity.
Qed.

(** The data for the benchmark in memory: heaps of the size asked for, the end of the stream
    as the last heap and nowhere else, and a gibibyte less at most one heap. *)
Theorem C81_data : forall err heap_size num, 0 < heap_size -> mem_heaps heap_size = Some num ->
  exists k, fst (build_streambuf err heap_size num) = repeat (HData heap_size) k ++ [HEnd] /\
    2 ^ 30 - heap_size < payload (fst (build_streambuf err heap_size num)) <= 2 ^ 30.
Proof.
  intros err n num Hn. unfold mem_heaps. destruct (Z.eqb_spec n 0); [lia|]. change (1024 * 1024 * 1024) with (2 ^ 30). intro E. assert (EN : 2 ^ 30 / n + 1 = num) by congruence. clear E. subst num. set (q := 2 ^ 30 / n).
  assert (Q0 : 0 <= q) by (apply Z.div_pos; lia). exists (Z.to_nat q). unfold build_streambuf. replace (Z.to_nat (q + 1)) with (S (Z.to_nat q)) by lia. rewrite (build_spec err n (q + 1) (Z.to_nat q) 0) by lia. cbn [fst]. split; [reflexivity|].
  rewrite payload_repeat, Z2Nat.id by exact Q0. assert (X := Z.div_mod (2 ^ 30) n ltac:(lia)). fold q in X. assert (Y := Z.mod_pos_bound (2 ^ 30) n Hn). lia.
Qed.
Print Assumptions C81_data.
Example C81_data_ex : mem_heaps (2 ^ 29 + 1) = Some 2 /\ fst (build_streambuf (fun _ => false) (2 ^ 29 + 1) 2) = [HData (2 ^ 29 + 1); HEnd].
Proof. split; vm_compute; reflexivity. Qed.

(** Errors of sending are never noticed: whatever happens to the heaps, the function does
    not throw. *)
Theorem C81_error_refuted : forall err heap_size num, snd (build_streambuf err heap_size num) = false.
Proof.
  intros err n num. unfold build_streambuf. generalize 0 as i. induction (Z.to_nat num) as [|f IH]; intro i; [reflexivity|]. cbn [build_loop]. specialize (IH (i + 1)). destruct (build_loop err n num (i + 1) f) as [hs t]. cbn [snd] in *. destruct (err i); exact IH.
Qed.
Print Assumptions C81_error_refuted.
Example C81_error_refuted_ex : build_streambuf (fun _ => true) 5 2 = ([HData 5; HEnd], false).
Proof. reflexivity. Qed.

(** A heap size of 0 divides by zero; with heaps of more than a gibibyte nothing is sent but
    the end of the stream. *)
Theorem C81_size_refuted : mem_heaps 0 = None /\ forall err n, 2 ^ 30 < n -> exists num, mem_heaps n = Some num /\ fst (build_streambuf err n num) = [HEnd].
Proof.
  split; [reflexivity|]. intros err n Hn. unfold mem_heaps. destruct (Z.eqb_spec n 0); [lia|]. change (1024 * 1024 * 1024) with (2 ^ 30). eexists. split; [reflexivity|]. rewrite Z.div_small by lia. unfold build_streambuf. change (Z.to_nat (0 + 1)) with 1%nat. now rewrite build_spec by lia.
Qed.
Print Assumptions C81_size_refuted.
