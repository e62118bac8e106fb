(** The slots and completions of the ibverbs sender: src/send_udp_ibv.cpp:221-299 (reap,
    wait_for_space) and :301-437 (wakeup), with the network card.

    One thread runs the handlers of the writer; the card runs at the same time.  Each poll
    of the completion queue, each packet taken from the stream, each call of the verbs
    library is a step.  A packet is known by its queue item, its size and whether it is the
    last of its group; what is in the frame is in IbvFrameModel.  The last four fields of
    the state are history: they are not read.  Simplified: the list linked by wr.next is
    given by the consecutive slots it consists of; verbs calls do not fail. *)
From Coq Require Import ZArith List Bool Arith.
From Verif Require Import ConcBase.
Import ListNotations.

Record pkt := { q_item : nat; q_size : Z; q_last : bool }.
(** slot, :87-95: item, last and size of the packet, and wr.wr_id (which is only assigned
    for the last packet of a batch, and else keeps its value) *)
Record slot := { sl_pkt : pkt; sl_id : nat }.
(** A work request in the hands of the card; a completion *)
Record work := { w_slot : nat; w_id : nat; w_sig : bool }.
Record comp := { c_id : nat; c_ok : bool }.

(** The card.  [Edge]: an event is made by the next completion after the request (this is
    what ibv_req_notify_cq promises).  [Level]: also if there are completions already. *)
Inductive notify := Edge | Level.
(** [all_errors]: requests that are not signalled, too, give a completion if they fail (as
    the verbs specification says) *)
Record config := { n_slots : nat; batch : nat; max_poll : nat; channel : bool; arming : notify; all_errors : bool }.

(** packet_result *)
Inductive answer := Success (p : pkt) | Sleep | Empty.
Inductive pc :=
| Requested                                   (* request_wakeup: until a heap is added *)
| Posted                                      (* post_wakeup *)
| Sleeping                                    (* sleep *)
| Reap (retries groups target : nat)          (* in the loop of reap *)
| Fill (i : nat) (more : bool) (first : nat)  (* in the loop of wakeup *)
| Post (i : nat) (more : bool) (first : nat) (a : answer)
| Decide (i : nat) (more : bool) (a : answer)
| Notify                                      (* before req_notify *)
| Waiting.                                    (* async_wait *)
Record state := {
  at_ : pc; head : nat; tail : nat; avail : nat; slots : list slot;
  infl : list work; cq : list comp; armed : bool; event : bool;
  sent : list pkt;              (* packets taken from the stream *)
  wired : list pkt;             (* packets the card has sent *)
  log : list (pkt * bool);      (* packets accounted for, and whether as sent *)
  done : nat                    (* sum of the arguments of groups_completed *)
}.
Definition set_pc (p : pc) (s : state) : state :=
  {| at_ := p; head := head s; tail := tail s; avail := avail s; slots := slots s; infl := infl s; cq := cq s; armed := armed s; event := event s;
     sent := sent s; wired := wired s; log := log s; done := done s |}.

Definition no_pkt : pkt := {| q_item := 0; q_size := 0; q_last := false |}.
(** The constructor (:455-558; start(), send_writer.h:179) *)
Definition init (c : config) : state :=
  {| at_ := Requested; head := 0; tail := 0; avail := n_slots c; slots := repeat {| sl_pkt := no_pkt; sl_id := 0 |} (n_slots c);
     infl := []; cq := []; armed := false; event := false; sent := []; wired := []; log := []; done := 0 |}.
(** calc_n_slots, :443-446, and calc_target_batch, :448-452, with the size of a frame *)
Definition calc_n_slots (buffer_size raw_size : Z) : Z := Z.max 1 (buffer_size / raw_size).
Definition calc_batch (raw_size n : Z) : Z := Z.min (Z.max (n / 4) 1) (262144 / raw_size).

Definition succ_mod (c : config) (i : nat) : nat := if S i =? n_slots c then 0 else S i.

Inductive res := Blocked | Fault | Ok (s : state).
(** The inner loop of reap, :247-265 *)
Fixpoint reap_slots (c : config) (ok : bool) (k : nat) (s : state) (groups : nat) : res * nat :=
  match k with
  | O => (Ok s, groups)
  | S k' =>
      match nth_error (slots s) (head s) with
      | None => (Fault, groups)
      | Some sl =>
          if n_slots c <=? avail s then (Fault, groups)         (* the slot's item is not valid any more *)
          else reap_slots c ok k'
                 {| at_ := at_ s; head := succ_mod c (head s); tail := tail s; avail := S (avail s); slots := slots s; infl := infl s; cq := cq s; armed := armed s; event := event s;
                    sent := sent s; wired := wired s; log := log s ++ [(sl_pkt sl, ok)]; done := done s |}
                 (groups + if q_last (sl_pkt sl) then 1 else 0)
      end
  end.
(** The start of wakeup and of reap, :301-303, :221-228 *)
Definition start (c : config) (s : state) : state := set_pc (Reap (max_poll c) 0 (Nat.min (n_slots c) (avail s + batch c))) s.
(** The end of reap, :268-270, and :304-313 *)
Definition end_reap (c : config) (retries groups : nat) (s : state) : state :=
  let s := {| at_ := at_ s; head := head s; tail := tail s; avail := avail s; slots := slots s; infl := infl s; cq := cq s; armed := armed s; event := event s;
              sent := sent s; wired := wired s; log := log s; done := done s + groups |} in
  let more := (avail s <? n_slots c) && (0 <? retries) in
  set_pc (if avail s <? batch c then (if channel c then Notify else Posted) else Fill 0 more (tail s)) s.
(** One round of the loop of reap, :231-267 *)
Definition do_reap (c : config) (retries groups target : nat) (s : state) : res :=
  if target <=? avail s then Ok (end_reap c retries groups s)
  else match cq s with
       | [] => match retries - 1 with
               | O => Ok (end_reap c 0 groups s)
               | S r => Ok (set_pc (Reap (S r) groups target) s)
               end
       | w :: cq' =>
           let s := {| at_ := at_ s; head := head s; tail := tail s; avail := avail s; slots := slots s; infl := infl s; cq := cq'; armed := armed s; event := event s;
                       sent := sent s; wired := wired s; log := log s; done := done s |} in
           match reap_slots c (c_ok w) (c_id w) s groups with
           | (Ok s, groups) => Ok (set_pc (Reap retries groups target) s)
           | (r, _) => r
           end
       end.
(** One round of the loop of wakeup, :314-402 *)
Definition do_fill (c : config) (i : nat) (more : bool) (first : nat) (a : answer) (s : state) : res :=
  match a with
  | Success p =>
      match nth_error (slots s) (tail s) with
      | None => Fault
      | Some sl =>
          let s := {| at_ := at_ s; head := head s; tail := succ_mod c (tail s); avail := avail s - 1; slots := upd (slots s) (tail s) {| sl_pkt := p; sl_id := sl_id sl |};
                      infl := infl s; cq := cq s; armed := armed s; event := event s; sent := sent s ++ [p]; wired := wired s; log := log s; done := done s |} in
          Ok (set_pc (if S i <? batch c then Fill (S i) more first else Post (S i) more first (Success p)) s)
      end
  | _ => Ok (set_pc (Post i more first a) s)
  end.
(** :404-409.  The i slots from [first] on; the last one is signalled. *)
Definition slot_at (c : config) (first j : nat) : nat := (first + j) mod n_slots c.
Definition do_post (c : config) (i : nat) (more : bool) (first : nat) (a : answer) (s : state) : res :=
  match i with
  | O => Ok (set_pc (Decide 0 more a) s)
  | S j =>
      match nth_error (slots s) (slot_at c first j) with
      | None => Fault
      | Some sl =>
          let sl' := upd (slots s) (slot_at c first j) {| sl_pkt := sl_pkt sl; sl_id := i |} in
          let ids := map (fun k => match nth_error sl' (slot_at c first k) with Some x => sl_id x | None => 0 end) (seq 0 i) in
          let ws := map (fun k => {| w_slot := slot_at c first k; w_id := nth k ids 0; w_sig := k =? j |}) (seq 0 i) in
          Ok (set_pc (Decide i more a)
               {| at_ := at_ s; head := head s; tail := tail s; avail := avail s; slots := sl'; infl := infl s ++ ws; cq := cq s; armed := armed s; event := event s;
                  sent := sent s; wired := wired s; log := log s; done := done s |})
      end
  end.
(** :411-436 *)
Definition do_decide (c : config) (i : nat) (more : bool) (a : answer) (s : state) : state :=
  set_pc (if (0 <? i) || more then Posted
          else match a with
               | Sleep => Sleeping
               | _ => if avail s <? n_slots c then (if channel c then Notify else Posted) else Requested
               end) s.
(** ibv_req_notify_cq, by :286 *)
Definition do_notify (c : config) (s : state) : state :=
  let now := match arming c with Edge => false | Level => match cq s with [] => false | _ => true end end in
  set_pc Waiting
    {| at_ := at_ s; head := head s; tail := tail s; avail := avail s; slots := slots s; infl := infl s; cq := cq s; armed := if now then false else true; event := if now then true else event s;
       sent := sent s; wired := wired s; log := log s; done := done s |}.
(** The handler, :287-294: takes all events, then wakeup *)
Definition do_event (c : config) (s : state) : state :=
  start c {| at_ := at_ s; head := head s; tail := tail s; avail := avail s; slots := slots s; infl := infl s; cq := cq s; armed := armed s; event := false;
             sent := sent s; wired := wired s; log := log s; done := done s |}.

(** The card processes its oldest work request: it reads the slot and then, if the request
    is signalled, adds a completion. *)
Definition do_card (c : config) (ok : bool) (s : state) : res :=
  match infl s with
  | [] => Blocked
  | w :: infl' =>
      match nth_error (slots s) (w_slot w) with
      | None => Fault
      | Some sl =>
          let complete := w_sig w || (negb ok && all_errors c) in
          Ok {| at_ := at_ s; head := head s; tail := tail s; avail := avail s; slots := slots s; infl := infl';
                cq := cq s ++ (if complete then [{| c_id := w_id w; c_ok := ok |}] else []);
                armed := armed s && negb complete; event := event s || (complete && armed s);
                sent := sent s; wired := wired s ++ [sl_pkt sl]; log := log s; done := done s |}
      end
  end.

Inductive label :=
| Go                  (* the writer's thread goes on, or runs a posted handler *)
| Get (a : answer)    (* get_packet gives this answer *)
| Wake                (* a heap was added, the timer of sleep has expired, or async_wait
                         completes without an event (:289-290 of the code: "spurious") *)
| Card (ok : bool).
Definition step (c : config) (l : label) (s : state) : res :=
  match l with
  | Card ok => do_card c ok s
  | Go =>
      match at_ s with
      | Posted => Ok (start c s)
      | Reap r g t => do_reap c r g t s
      | Post i m f a => do_post c i m f a s
      | Decide i m a => Ok (do_decide c i m a s)
      | Notify => Ok (do_notify c s)
      | Waiting => if event s then Ok (do_event c s) else Blocked
      | _ => Blocked
      end
  | Get a => match at_ s with Fill i m f => do_fill c i m f a s | _ => Blocked end
  | Wake => match at_ s with Requested | Sleeping | Waiting => Ok (start c s) | _ => Blocked end
  end.
Inductive reach (c : config) : state -> Prop :=
| reach_init : reach c (init c)
| reach_step s l s' : reach c s -> step c l s = Ok s' -> reach c s'.
Fixpoint run (c : config) (ls : list label) (s : state) : option state :=
  match ls with [] => Some s | l :: ls' => match step c l s with Ok s' => run c ls' s' | _ => None end end.
