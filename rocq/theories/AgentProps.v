(** C82: the agent of the benchmark answers the master, and serves one master after the other. *)
From Coq Require Import ZArith List Bool Lia.
From Verif Require Import AgentModel.
Import ListNotations.

(** Ready and Count in turns; the counts are those of the connections made, in order. *)
Fixpoint turns (heaps : nat -> Z) (n : nat) (running : bool) (rs : list reply) : Prop :=
  match rs with
  | [] => True
  | Ready :: t => running = false /\ turns heaps (S n) true t
  | Count k :: t => running = true /\ k = heaps (n - 1)%nat /\ turns heaps n false t
  end.
Definition busy (st : state) : bool := match st with Idle => false | Running _ => true | Config _ (Some _) => true | Config _ None => false end.

(** What the master sends: any number of measurements; a configuration has no line
    "end_config". *)
Definition measurement (c : list line) : list line := Start :: c ++ [EndConfig; Stop].
Definition polite (c : list line) : Prop := ~ In EndConfig c.
Fixpoint answers (heaps : nat -> Z) (n k : nat) : list reply := match k with O => [] | S k' => Ready :: Count (heaps n) :: answers heaps (S n) k' end.

Lemma read_config conf heaps : forall c acc conn n t, polite c ->
  session conf heaps (Config acc conn) n (c ++ EndConfig :: t) = session conf heaps (Config (rev c ++ acc) conn) n (EndConfig :: t).
Proof.
  induction c as [|l c IH]; intros acc conn n t P; [reflexivity|]. assert (P' : polite c) by (intro H; apply P; now right). assert (N : l <> EndConfig) by (intros ->; apply P; now left).
  assert (L : session conf heaps (Config acc conn) n ((l :: c) ++ EndConfig :: t) = session conf heaps (Config (l :: acc) conn) n (c ++ EndConfig :: t)).
  { cbn [app session]. destruct l; try (now elim N); cbn [step]; destruct (session conf heaps (Config _ conn) n (c ++ EndConfig :: t)) as [[rs e] n']; reflexivity. }
  rewrite L, IH by exact P'. cbn [rev]. rewrite <- app_assoc. reflexivity.
Qed.
Lemma start_config conf heaps c n t r : polite c -> conf c = Some r ->
  session conf heaps Idle n (Start :: c ++ EndConfig :: t) = let '(rs, e, n') := session conf heaps (Running r) (S n) t in (Ready :: rs, e, n').
Proof.
  intros P C. cbn [session step]. rewrite read_config by exact P. rewrite app_nil_r. cbn [session step configured]. rewrite rev_involutive, C. destruct (session conf heaps (Running r) (S n) t) as [[rs e] n']. reflexivity.
Qed.

(** The master gets "ready" and then the number of heaps received, for each of its
    measurements, and the agent is ready for the next master, whether this one says "exit" or
    just closes the connection. *)
Theorem C82_session : forall conf heaps cs n bye, (forall c, In c cs -> polite c /\ conf c <> None) -> (bye = [] \/ exists more, bye = Exit :: more) ->
  session conf heaps Idle n (flat_map measurement cs ++ bye) = (answers heaps n (length cs), Next, (n + length cs)%nat).
Proof.
  intros conf heaps. induction cs as [|c cs IH]; intros n bye H B.
  - cbn. rewrite Nat.add_0_r. destruct B as [-> |(more & ->)]; reflexivity.
  - destruct (H c (or_introl eq_refl)) as [P C]. destruct (conf c) as [r|] eqn:E; [|now elim C]. cbn [flat_map measurement app].
    replace (((c ++ [EndConfig; Stop]) ++ flat_map measurement cs) ++ bye) with (c ++ EndConfig :: (Stop :: flat_map measurement cs ++ bye)) by (rewrite <- !app_assoc; reflexivity).
    rewrite (start_config _ _ _ _ _ r P E). cbn [session step]. rewrite IH by (auto; intros c' Hc; apply H; now right). cbn [length answers app Nat.sub]. rewrite Nat.sub_0_r. replace (S n + length cs)%nat with (n + S (length cs))%nat by lia. reflexivity.
Qed.
Print Assumptions C82_session.
Definition ex_conf (c : list line) : option bool := match c with [Text [1%Z]] => Some true | [Text [2%Z]] => Some false | _ => None end.
Example C82_session_ex : session ex_conf (fun n => Z.of_nat n + 10)%Z Idle 0 (flat_map measurement [[Text [1%Z]]; [Text [2%Z]]]) = ([Ready; Count 10; Ready; Count 11], Next, 2%nat).
Proof. reflexivity. Qed.

(** Several masters in turn: each is answered as if it were alone. *)
Theorem C82_masters : forall conf heaps css n, (forall cs c, In cs css -> In c cs -> polite c /\ conf c <> None) ->
  exists rss, agent conf heaps n (map (flat_map measurement) css) = (rss, Next) /\ concat rss = answers heaps n (length (concat css)) /\ map (@length reply) rss = map (fun cs => 2 * length cs)%nat css.
Proof.
  intros conf heaps. induction css as [|cs css IH]; intros n H; [exists []; auto|]. cbn [map agent].
  rewrite <- (app_nil_r (flat_map measurement cs)). rewrite (C82_session conf heaps cs n [] (fun c Hc => H cs c (or_introl eq_refl) Hc) (or_introl eq_refl)).
  destruct (IH (n + length cs)%nat) as (rss & E & C & L); [intros cs' c Hcs Hc; apply (H cs' c); [now right|exact Hc]|]. rewrite E. exists (answers heaps n (length cs) :: rss). split; [reflexivity|].
  assert (AA : forall k j m, answers heaps m (k + j) = answers heaps m k ++ answers heaps (m + k) j).
  { induction k as [|k IHk]; intros j m; cbn [answers Nat.add app]; [now rewrite Nat.add_0_r|]. rewrite IHk. replace (S m + k)%nat with (m + S k)%nat by lia. reflexivity. }
  assert (AL : forall k m, length (answers heaps m k) = (2 * k)%nat) by (induction k as [|k IHk]; intro m; cbn [answers length]; [reflexivity|rewrite IHk; lia]).
  cbn [concat map]. rewrite C, app_length, AA, AL, L. auto.
Qed.
Print Assumptions C82_masters.
Example C82_masters_ex : fst (agent ex_conf (fun n => Z.of_nat n) 0 (map (flat_map measurement) [[[Text [1%Z]]]; []; [[Text [2%Z]]; [Text [1%Z]]]])) = [[Ready; Count 0]; []; [Ready; Count 1; Ready; Count 2]].
Proof. reflexivity. Qed.

(** Whatever is sent, in whatever order, the answers come in turns: no count without a
    connection, and each count is that of the connection made last. *)
Theorem C82_turns : forall conf heaps ls n, turns heaps n false (fst (fst (session conf heaps Idle n ls))).
Proof.
  intros conf heaps ls n. change false with (busy Idle). generalize Idle as st. revert n. induction ls as [|l t IH]; intros n st.
  - destruct st as [|r|acc [r|]]; cbn; auto. destruct (conf (rev acc)); cbn; auto.
  - cbn [session]. destruct (step conf heaps st n l) as [[[[st'|] r] n']|] eqn:E; [|destruct st as [|[]|acc c], l; cbn in E; try discriminate; try (injection E as <- <-; exact Logic.I); destruct (configured conf acc c n) as [[[a b] d]|]; discriminate|exact Logic.I].
    specialize (IH n' st'). destruct (session conf heaps st' n' t) as [[rs e] n'']. cbn [fst] in *.
    assert (G : r = [] /\ n' = n /\ busy st' = busy st \/ r = [Ready] /\ n' = S n /\ busy st = false /\ busy st' = true \/ r = [Count (heaps (n - 1)%nat)] /\ n' = n /\ busy st = true /\ busy st' = false).
    { destruct st as [|[|]|acc [c|]], l; cbn in E; try discriminate; try (injection E as <- <- <-; cbn; auto 8; fail). destruct (conf (rev acc)); [|discriminate]. injection E as <- <- <-. cbn. auto 8. }
    destruct G as [(-> & -> & <-)|[(-> & -> & -> & G)|(-> & -> & -> & G)]]; cbn [app turns]; [exact IH|rewrite G in IH; auto|rewrite G in IH; auto].
Qed.
Print Assumptions C82_turns.
Example C82_turns_ex : session ex_conf (fun n => Z.of_nat n) Idle 0 [Stop; Start; Text [1%Z]; EndConfig; Start; Text [7%Z]; EndConfig; Stop; Stop; Exit; Stop] = ([Ready; Count 0], Next, 1%nat).
Proof. reflexivity. Qed.

(** A master that goes away during a measurement with a ring kills the agent, so that the next
    master is not served; whether it says "exit" or is just gone. *)
Theorem C82_lost_refuted : forall conf heaps c n bye more, polite c -> conf c = Some true -> (bye = [] \/ exists m, bye = Exit :: m) ->
  agent conf heaps n ((Start :: c ++ EndConfig :: bye) :: more) = ([[Ready]], Dies).
Proof.
  intros conf heaps c n bye more P C B. cbn [agent]. rewrite (start_config _ _ _ _ _ true P C). destruct B as [-> |(m & ->)]; reflexivity.
Qed.
Print Assumptions C82_lost_refuted.
Example C82_lost_refuted_ex : agent ex_conf (fun n => Z.of_nat n) 0 [[Start; Text [1%Z]; EndConfig]; measurement [Text [1%Z]]] = ([[Ready]], Dies).
Proof. reflexivity. Qed.

(** So does a configuration that cannot be used; the master gets no answer. *)
Theorem C82_config_refuted : forall conf heaps c n t more, polite c -> conf c = None ->
  agent conf heaps n ((Start :: c ++ EndConfig :: t) :: more) = ([[]], Dies).
Proof.
  intros conf heaps c n t more P C. cbn [agent session step]. rewrite read_config by exact P. rewrite app_nil_r. cbn [session step configured]. now rewrite rev_involutive, C.
Qed.
Print Assumptions C82_config_refuted.
Example C82_config_refuted_ex : agent ex_conf (fun n => Z.of_nat n) 0 [[Start; Text [3%Z]; EndConfig; Stop]; measurement [Text [1%Z]]] = ([[]], Dies).
Proof. reflexivity. Qed.
