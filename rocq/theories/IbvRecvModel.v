(** The ibverbs receiver: udp_ibv_reader (/repo/src/recv_udp_ibv.cpp:165-280), with the
    handler it shares with the multi-packet reader (/repo/include/spead2/recv_udp_ibv.h:160-258)
    and the network card, on top of the model of the stream.

    One thread runs the handlers; the card runs at the same time.  Each call of the verbs
    library and each completion dealt with is a step.  The handler holds the lock of the
    stream; between handlers the user may flush or stop the stream.  The last fields of the
    state are history: they are not read.  Simplified: verbs calls do not fail unless a queue
    overflows; the card writes a frame into a slot in one step (but reading a slot that
    the card may write to is a fault). *)
From Coq Require Import ZArith List Bool Arith.
From Verif Require Import Base ConcBase RecvPacketModel LiveHeapModel StreamModel RawModel ReadersModel.
Import ListNotations.
Open Scope nat_scope.

(** [raw_size]: max_size + header_length *)
Record config := { n_slots : nat; raw_size : Z; max_size : Z; max_poll : nat; channel : bool }.
(** ibv_wc *)
Record comp := { c_slot : nat; c_ok : bool; c_len : Z }.
Inductive pc :=
| Waiting                                   (* async_wait on the completion channel *)
| Queued                                    (* posted to the io_context *)
| Iter (i : nat) (need : bool)              (* in the loop of packet_handler *)
| Poll (i : nat) (need : bool)              (* before poll_once *)
| Proc (i : nat) (need : bool) (wcs : list comp) (chain : list nat)   (* in the loop of poll_once *)
| Gone.                                     (* the stream has stopped *)
(** History: a handler has dealt with these frames; the user has stopped or flushed. *)
Inductive did := Handled (fs : list (list Z)) | ByUser (stop : bool).
Record state := {
  at_ : pc;
  rq : list nat;                  (* slots in the receive queue *)
  cq : list comp;
  mem : list (list Z);            (* contents of the slots *)
  armed : bool; event : bool;
  str : stream; wk : work;        (* [wk]: during a handler *)
  rs : list bool;
  taken : list (list Z);          (* frames that the card has received *)
  cur : list (list Z);            (* frames dealt with in this handler *)
  log : list did                  (* what has been done to the stream *)
}.
Inductive res := Blocked | Fault | Ok (s : state).

Section Model.
Context (sc : sconfig) (c : config).
Definition set_pc (p : pc) (s : state) : state :=
  {| at_ := p; rq := rq s; cq := cq s; mem := mem s; armed := armed s; event := event s; str := str s; wk := wk s; rs := rs s; taken := taken s; cur := cur s; log := log s |}.
Definition no_work (st : stream) : work := {| k_s := st; k_b := batch_new st; k_rs := [] |}.
(** The constructor (recv_udp_ibv.cpp:223-270) posts all slots; start (:272-277) *)
Definition init : state :=
  {| at_ := Queued; rq := seq 0 (n_slots c); cq := []; mem := repeat [] (n_slots c); armed := false; event := false; str := stream_new sc; wk := no_work (stream_new sc); rs := [];
     taken := []; cur := []; log := [] |}.
(** :171 *)
Definition post_batch : nat := Nat.min (Nat.max (n_slots c / 4) 1) 64.

(** post_recv *)
Definition post (l : list nat) (s : state) : res :=
  if length (rq s) + length l <=? n_slots c then
    Ok {| at_ := at_ s; rq := rq s ++ l; cq := cq s; mem := mem s; armed := armed s; event := event s; str := str s; wk := wk s; rs := rs s; taken := taken s; cur := cur s; log := log s |}
  else Fault.

(** bound_handler: the add_packet_state is made and the handler called unless the stream has
    stopped; then recv_udp_ibv.h:171-181.  [ev]: consume_event *)
Definition enter (ev : bool) (s : state) : state :=
  if st_stopped (str s) then set_pc Gone s
  else {| at_ := Iter 0 true; rq := rq s; cq := cq s; mem := mem s; armed := armed s; event := if ev then false else event s; str := str s; wk := no_work (str s); rs := rs s;
          taken := taken s; cur := []; log := log s |}.
(** The end of packet_handler (:217-223, enqueue_receive :226-250) and of the bound
    handler, which destroys the add_packet_state *)
Definition leave (need : bool) (s : state) : res :=
  match batch_end sc (k_s (wk s)) (k_b (wk s)) with
  | None => Fault
  | Some st =>
      Ok {| at_ := if is_stopped (wk s) then Gone else if channel c && negb need then Waiting else Queued;
            rq := rq s; cq := cq s; mem := mem s; armed := armed s; event := event s; str := st; wk := no_work st; rs := rs s ++ k_rs (wk s);
            taken := taken s; cur := []; log := log s ++ [Handled (cur s)] |}
  end.
(** :182-200: the head of the loop; notification is requested before the last poll *)
Definition do_iter (i : nat) (need : bool) (s : state) : res :=
  if i <? max_poll c then
    if channel c && (S i =? max_poll c) then
      Ok {| at_ := Poll i false; rq := rq s; cq := cq s; mem := mem s; armed := true; event := event s; str := str s; wk := wk s; rs := rs s; taken := taken s; cur := cur s; log := log s |}
    else Ok (set_pc (Poll i need) s)
  else leave need s.
(** recv_udp_ibv.cpp:172 *)
Definition do_poll (i : nat) (need : bool) (s : state) : state :=
  {| at_ := Proc i need (firstn (n_slots c) (cq s)) []; rq := rq s; cq := skipn (n_slots c) (cq s); mem := mem s; armed := armed s; event := event s; str := str s; wk := wk s; rs := rs s;
     taken := taken s; cur := cur s; log := log s |}.
(** A frame in a slot: :186-206; the second result: whether the stream has stopped *)
Definition do_frame (f : list Z) (x : work) : option (work * bool) :=
  match udp_from Ethernet f with
  | PFault => None
  | PErr _ => Some (x, false)
  | POk b => process_one_packet sc x (slice f (pb_off b) (pb_len b)) (max_size c)
  end.
(** :207-221: the slot joins the chain, which is posted when it is long enough *)
Definition link_slot (i : nat) (need : bool) (k : nat) (wcs : list comp) (chain : list nat) (s : state) : res :=
  let chain := chain ++ [k] in
  if length chain =? post_batch then match post chain s with Ok s => Ok (set_pc (Proc i need wcs []) s) | r => r end
  else Ok (set_pc (Proc i need wcs chain) s).
(** One round of the loop of poll_once (:176-222), or what follows it (:223-228) *)
Definition do_proc (i : nat) (need : bool) (wcs : list comp) (chain : list nat) (s : state) : res :=
  match wcs with
  | [] => match chain with
          | [] => Ok (set_pc (Iter (S i) need) s)
          | _ => match post chain s with Ok s => Ok (set_pc (Iter (S i) need) s) | r => r end
          end
  | w :: wcs =>
      if c_ok w then
        match nth_error (mem s) (c_slot w) with
        | None => Fault
        | Some m =>
            if existsb (Nat.eqb (c_slot w)) (rq s) then Fault       (* the card may write to it *)
            else
              let f := slice m 0 (c_len w) in
              match do_frame f (wk s) with
              | None => Fault
              | Some (x, stop) =>
                  let s := {| at_ := at_ s; rq := rq s; cq := cq s; mem := mem s; armed := armed s; event := event s; str := str s; wk := x; rs := rs s; taken := taken s; cur := cur s ++ [f]; log := log s |} in
                  if stop then leave need s else link_slot i need (c_slot w) wcs chain s
              end
        end
      else link_slot i need (c_slot w) wcs chain s
  end.

(** The card: a completion is added; an event is made if one was asked for (edge-triggered,
    as ibv_req_notify_cq promises). *)
Definition complete (k : nat) (ok : bool) (len : Z) (rq' : list nat) (f : option (list Z)) (s : state) : res :=
  if length (cq s) <? n_slots c then
    Ok {| at_ := at_ s; rq := rq'; cq := cq s ++ [{| c_slot := k; c_ok := ok; c_len := len |}];
          mem := match f with Some f => upd (mem s) k (f ++ skipn (length f) (nth k (mem s) [])) | None => mem s end;
          armed := false; event := event s || armed s; str := str s; wk := wk s; rs := rs s;
          taken := match f with Some f => taken s ++ [f] | None => taken s end; cur := cur s; log := log s |}
  else Fault.                                                        (* overflow of the completion queue *)
Inductive label :=
| CardRecv (f : list Z)     (* a frame arrives for which there is a slot *)
| CardErr                   (* a request fails, e.g. because the frame is too long *)
| Run                       (* the thread of the reader *)
| Abort                     (* async_wait fails *)
| User (stop : bool).
Definition step_user (stop : bool) (s : state) : res :=
  let o := if stop then Stop else Flush in
  match step sc (str s) o with
  | None => Fault
  | Some (st, r) => Ok {| at_ := at_ s; rq := rq s; cq := cq s; mem := mem s; armed := armed s; event := event s; str := st; wk := no_work st; rs := rs s ++ r;
                          taken := taken s; cur := cur s; log := log s ++ [ByUser stop] |}
  end.
Definition next (s : state) (l : label) : res :=
  match l with
  | CardRecv f =>
      match rq s with
      | k :: rq' => if (zlen f <=? raw_size c)%Z then complete k true (zlen f) rq' (Some f) s else Blocked
      | [] => Blocked
      end
  | CardErr => match rq s with k :: rq' => complete k false 0 rq' None s | [] => Blocked end
  | Run =>
      match at_ s with
      | Waiting => if event s then Ok (enter true s) else Blocked
      | Queued => Ok (enter false s)
      | Iter i need => do_iter i need s
      | Poll i need => Ok (do_poll i need s)
      | Proc i need wcs chain => do_proc i need wcs chain s
      | Gone => Blocked
      end
  | Abort =>
      match at_ s with
      | Waiting =>
          (* :211-218: nothing is read; if the stream has not stopped, the handler is posted *)
          if st_stopped (str s) then Ok (set_pc Gone s)
          else leave true (set_pc (Iter 0 true) {| at_ := at_ s; rq := rq s; cq := cq s; mem := mem s; armed := armed s; event := event s; str := str s; wk := no_work (str s); rs := rs s;
                                                    taken := taken s; cur := []; log := log s |})
      | _ => Blocked
      end
  | User stop => match at_ s with Waiting | Queued | Gone => step_user stop s | _ => Blocked end
  end.
Definition sane (l : label) : Prop := match l with CardRecv f => bytes_ok f | _ => True end.
Inductive reach : state -> Prop :=
| reach_init : reach init
| reach_next s l s' : reach s -> sane l -> next s l = Ok s' -> reach s'.
Fixpoint run_labels (ls : list label) (s : state) : res :=
  match ls with [] => Ok s | l :: ls => match next s l with Ok s => run_labels ls s | r => r end end.
End Model.
