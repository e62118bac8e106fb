(** The multi-packet ibverbs receiver: udp_ibv_mprq_reader (/repo/src/recv_udp_ibv_mprq.cpp:65-232)
    with its work queue (ibv_wq_mprq_t, /repo/src/common_ibv.cpp:543-614), the poller
    (/repo/include/spead2/common_ibv.h:223-277), the handler of /repo/include/spead2/recv_udp_ibv.h:160-258
    and the network card, on top of the model of the stream.

    The thread that runs handlers, the thread that calls start, the card and the user take
    steps in any order.  The buffer is a function from offsets to bytes.  The last fields of
    the state are history.  Simplified: verbs calls do not fail; the card writes a frame in
    one step (but reading bytes that the card may still write is a fault); posting a buffer
    is one step, although start and a handler may do so at the same time without a lock. *)
From Coq Require Import ZArith List Bool Arith.
From Verif Require Import Base ConcBase RecvPacketModel LiveHeapModel StreamModel RawModel ReadersModel IbvRecvModel.
Import ListNotations.
Open Scope Z_scope.

(** [wqe] buffers of [n_strides] strides of [stride] bytes; [wqe_cnt]: entries in the ring of
    the card; [cqe]: size of the completion queue *)
Record mconfig := { wqe : Z; wqe_cnt : Z; n_strides : Z; stride : Z; cqe : Z; m_max : Z; m_poll : nat; m_channel : bool;
                    early : bool }.   (* whether a buffer may be used up before start is done, see [do_completion] *)
Definition wqe_size (c : mconfig) : Z := n_strides c * stride c.
Definition buffer_size (c : mconfig) : Z := wqe c * wqe_size c.
(** The constructor, :148-185: [None] if it throws.  [k]: the limits of the card; the
    result: log2 of stride size and strides, buffers, size of the completion queue *)
Definition clamp (x lo hi : Z) : Z := if x <? lo then lo else if hi <? x then hi else x.
Record caps := { min_ls : Z; max_ls : Z; min_ln : Z; max_ln : Z; max_cqe : Z; max_qp_wr : Z }.
Definition sizes (k : caps) (buffer : Z) : option (Z * Z * Z * Z) :=
  let ls := clamp 6 (min_ls k) (max_ls k) in
  let ln := clamp ((20 - ls) mod 2 ^ 32) (min_ln k) (max_ln k) in
  let size := 2 ^ (ls + ln) in
  let buffer := if buffer <? 2 * size then 2 * size else buffer in
  let strides := buffer / 2 ^ ls in
  let strides := if max_cqe k <? strides then max_cqe k else strides in
  let n := strides / 2 ^ ln in
  let n := if max_qp_wr k <? n then max_qp_wr k else n in
  if n <? 2 then None else Some (ls, ln, n, strides).

Record comp := { c_ok : bool; c_cnt : Z }.     (* [c_cnt]: the packed byte count *)
Inductive pc :=
| Waiting | Queued                              (* as in IbvRecvModel *)
| Iter (i : nat) (need : bool)
| Poll (i : nat) (need : bool) (it : nat)       (* the loop of poll_once *)
| Last (i : nat) (need : bool) (it : nat)       (* :124: before poller.stop *)
| Repost (i : nat) (need : bool) (it : nat)     (* :125 *)
| Gone.
Record state := {
  at_ : pc;
  todo : nat;                     (* buffers that start has not posted yet *)
  ring : list Z; head : Z; tail : Z; tstr : Z; db : Z;   (* ibv_wq_mprq_t: entries (offsets), counters, doorbell record *)
  wstart : Z;
  mem : Z -> Z;
  k : Z; used : Z; dead : bool;   (* the card: entries used up, strides used of the next, error state *)
  cq : list comp; held : Z;       (* [held]: completions read but not yet released *)
  armed : bool; event : bool;
  str : stream; wk : work; rs : list bool;
  taken : list (list Z); cur : list (list Z); log : list did
}.
Inductive res := Blocked | Fault | Ok (s : state).

Section Model.
Context (sc : sconfig) (c : mconfig).
Definition upd_reader (p : pc) (tl ts ws : Z) (q : list comp) (h : Z) (x : work) (cu : list (list Z)) (s : state) : state :=
  {| at_ := p; todo := todo s; ring := ring s; head := head s; tail := tl; tstr := ts; db := db s; wstart := ws; mem := mem s; k := k s; used := used s; dead := dead s; cq := q; held := h;
     armed := armed s; event := event s; str := str s; wk := x; rs := rs s; taken := taken s; cur := cu; log := log s |}.
Definition set_pc (p : pc) (s : state) : state := upd_reader p (tail s) (tstr s) (wstart s) (cq s) (held s) (wk s) (cur s) s.
Definition release (p : pc) (s : state) : state := upd_reader p (tail s) (tstr s) (wstart s) (cq s) 0 (wk s) (cur s) s.
(** The constructor, and the first two lines of start (:227-228) *)
Definition init : state :=
  {| at_ := Queued; todo := Z.to_nat (wqe c); ring := repeat 0 (Z.to_nat (wqe_cnt c)); head := 0; tail := 0; tstr := 0; db := 0; wstart := 0; mem := fun _ => 0; k := 0; used := 0; dead := false; cq := []; held := 0;
     armed := false; event := false; str := stream_new sc; wk := no_work (stream_new sc); rs := []; taken := []; cur := []; log := [] |}.

(** ibv_wq_mprq_t::post_recv, common_ibv.cpp:569-590, of the entry at [addr] (post_wr, :65-72) *)
Definition post_recv (p : pc) (td : nat) (ws addr : Z) (s : state) : res :=
  if wqe_cnt c <=? (head s - tail s) mod 2 ^ 32 then Fault           (* throws: queue is full *)
  else
    let h := (head s + 1) mod 2 ^ 32 in
    Ok {| at_ := p; todo := td; ring := upd (ring s) (Z.to_nat (Z.land (head s) (wqe_cnt c - 1))) addr; head := h; tail := tail s; tstr := tstr s; db := Z.land h 65535; wstart := ws; mem := mem s;
          k := k s; used := used s; dead := dead s; cq := cq s; held := held s; armed := armed s; event := event s; str := str s; wk := wk s; rs := rs s; taken := taken s; cur := cur s; log := log s |}.
(** One round of the loop of start, :229-230 *)
Definition do_start (s : state) : res :=
  match todo s with
  | O => Blocked
  | S n => post_recv (at_ s) n (wstart s) ((wqe c - Z.of_nat (todo s)) * wqe_size c) s
  end.

(** The card.  How many entries it may use, by the doorbell record *)
Definition avail (s : state) : Z := (db s - k s) mod 65536.
Definition entry (s : state) (j : Z) : Z := nth (Z.to_nat (j mod wqe_cnt c)) (ring s) 0.
(** The bytes it may write: from, to *)
Definition writable (s : state) : list (Z * Z) :=
  map (fun i => let j := k s + Z.of_nat i in
                (entry s j + (match i with O => used s * stride c | _ => 0 end), entry s j + wqe_size c)) (seq 0 (Z.to_nat (avail s))).
(** Reads of [len] bytes: inside the buffer, and not where the card may write *)
Definition may_read (s : state) (a len : Z) : bool :=
  (0 <=? a) && (a + len <=? buffer_size c) && forallb (fun r => (a + len <=? fst r) || (snd r <=? a)) (writable s).

(** packet_handler and the bound handler: as in IbvRecvModel *)
Definition enter (ev : bool) (s : state) : state :=
  if st_stopped (str s) then set_pc Gone s
  else {| at_ := Iter 0 true; todo := todo s; ring := ring s; head := head s; tail := tail s; tstr := tstr s; db := db s; wstart := wstart s; mem := mem s; k := k s; used := used s; dead := dead s; cq := cq s; held := held s;
          armed := armed s; event := if ev then false else event s; str := str s; wk := no_work (str s); rs := rs s; taken := taken s; cur := []; log := log s |}.
Definition leave (need : bool) (s : state) : res :=
  match batch_end sc (k_s (wk s)) (k_b (wk s)) with
  | None => Fault
  | Some st =>
      Ok {| at_ := if is_stopped (wk s) then Gone else if m_channel c && negb need then Waiting else Queued;
            todo := todo s; ring := ring s; head := head s; tail := tail s; tstr := tstr s; db := db s; wstart := wstart s; mem := mem s; k := k s; used := used s; dead := dead s; cq := cq s; held := held s;
            armed := armed s; event := event s; str := st; wk := no_work st; rs := rs s ++ k_rs (wk s); taken := taken s; cur := []; log := log s ++ [Handled (cur s)] |}
  end.
Definition do_iter (i : nat) (need : bool) (s : state) : res :=
  if (i <? m_poll c)%nat then
    if m_channel c && (S i =? m_poll c)%nat then
      Ok {| at_ := Poll i false 0; todo := todo s; ring := ring s; head := head s; tail := tail s; tstr := tstr s; db := db s; wstart := wstart s; mem := mem s; k := k s; used := used s; dead := dead s; cq := cq s; held := held s;
            armed := true; event := event s; str := str s; wk := wk s; rs := rs s; taken := taken s; cur := cur s; log := log s |}
    else Ok (set_pc (Poll i need 0) s)
  else leave need s.

(** poll_once, :74-132 *)
Definition max_iter : nat := 256.
Definition load (m : Z -> Z) (a n : Z) : list Z := map (fun i => m (a + Z.of_nat i)) (seq 0 (Z.to_nat n)).
(** :96-117; as in IbvRecvModel *)
Definition do_frame (f : list Z) (x : work) : option (work * bool) :=
  match udp_from Ethernet f with
  | PFault => None
  | PErr _ => Some (x, false)
  | POk b => process_one_packet sc x (slice f (pb_off b) (pb_len b)) (m_max c)
  end.
(** A successful completion: read_wc (common_ibv.cpp:592-614), then :94-124.  Unless [early],
    executions in which a buffer is used up before start is done are left out. *)
Definition do_completion (i : nat) (need : bool) (it : nat) (b : Z) (q : list comp) (s : state) : res :=
  let field := b / 65536 in
  let filler := 32768 <=? field in
  let strides := if filler then field - 32768 else field in
  let len := b mod 65536 in
  let offset := (tstr s * stride c) mod 2 ^ 32 in
  let ts := tstr s + strides in
  let last := n_strides c <=? ts in
  if n_strides c <? ts then Fault                                    (* assertion *)
  else if last && negb (early c) && negb (todo s =? 0)%nat then Blocked
  else
    let tl := if last then (tail s + 1) mod 2 ^ 32 else tail s in
    let ts := if last then 0 else ts in
    let p := if last then Last i need it else Poll i need (S it) in
    if filler then Ok (upd_reader p tl ts (wstart s) q (held s + 1) (wk s) (cur s) s)
    else
      let a := wstart s + offset in
      if may_read s a len then
        let f := load (mem s) a len in
        match do_frame f (wk s) with
        | None => Fault
        | Some (x, true) => leave need (upd_reader p tl ts (wstart s) q 0 x (cur s ++ [f]) s)   (* stopped; the destructor of the poller *)
        | Some (x, false) => Ok (upd_reader p tl ts (wstart s) q (held s + 1) x (cur s ++ [f]) s)
        end
      else Fault.
Definition do_poll (i : nat) (need : bool) (it : nat) (s : state) : res :=
  if (max_iter <=? it)%nat then Ok (release (Iter (S i) true) s)      (* partial *)
  else match cq s with
       | [] => Ok (release (Iter (S i) need) s)                       (* drained *)
       | w :: q => if c_ok w then do_completion i need it (c_cnt w) q s
                   else Ok (upd_reader (Poll i need (S it)) (tail s) (tstr s) (wstart s) q (held s + 1) (wk s) (cur s) s)
       end.
(** :125-128 *)
Definition do_repost (i : nat) (need : bool) (it : nat) (s : state) : res :=
  let ws := wstart s + wqe_size c in
  post_recv (Poll i need (S it)) (todo s) (if ws =? buffer_size c then 0 else ws) (wstart s) s.

(** The card: a completion that takes [n] strides *)
Definition complete (ok : bool) (cnt n : Z) (f : option (list Z)) (dd : bool) (s : state) : res :=
  if held s + zlen (cq s) <? cqe c then
    let a := entry s (k s) + used s * stride c in
    Ok {| at_ := at_ s; todo := todo s; ring := ring s; head := head s; tail := tail s; tstr := tstr s; db := db s; wstart := wstart s;
          mem := match f with Some f => fun x => if (a <=? x) && (x <? a + zlen f) then nth (Z.to_nat (x - a)) f 0 else mem s x | None => mem s end;
          k := if used s + n =? n_strides c then k s + 1 else k s; used := if used s + n =? n_strides c then 0 else used s + n; dead := dd;
          cq := cq s ++ [{| c_ok := ok; c_cnt := cnt |}]; held := held s; armed := false; event := event s || armed s; str := str s; wk := wk s; rs := rs s;
          taken := match f with Some f => taken s ++ [f] | None => taken s end; cur := cur s; log := log s |}
  else Fault.                                                          (* overflow of the completion queue *)
Inductive label :=
| Start
| CardRecv (f : list Z) (n : Z)      (* a frame, for which the card takes [n] strides *)
| CardFill (n len : Z)               (* strides are left unused *)
| CardErr                            (* an error: from then on there are only errors *)
| Run | Abort | User (stop : bool).
Definition step_user (stop : bool) (s : state) : res :=
  match step sc (str s) (if stop then Stop else Flush) with
  | None => Fault
  | Some (st, r) => Ok {| at_ := at_ s; todo := todo s; ring := ring s; head := head s; tail := tail s; tstr := tstr s; db := db s; wstart := wstart s; mem := mem s; k := k s; used := used s; dead := dead s; cq := cq s; held := held s;
                          armed := armed s; event := event s; str := st; wk := no_work st; rs := rs s ++ r; taken := taken s; cur := cur s; log := log s ++ [ByUser stop] |}
  end.
Definition next (s : state) (l : label) : res :=
  match l with
  | Start => do_start s
  | CardRecv f n =>
      if negb (dead s) && (0 <? avail s) && (1 <=? n) && (used s + n <=? n_strides c) && (zlen f <=? n * stride c) && (zlen f <? 65536)
      then complete true (n * 65536 + zlen f) n (Some f) false s else Blocked
  | CardFill n len =>
      if negb (dead s) && (0 <? avail s) && (1 <=? n) && (used s + n <=? n_strides c) && (0 <=? len) && (len <? 65536)
      then complete true ((32768 + n) * 65536 + len) n None false s else Blocked
  | CardErr => if 0 <? avail s then complete false 0 (n_strides c - used s) None true s else Blocked
  | Run =>
      match at_ s with
      | Waiting => if event s then Ok (enter true s) else Blocked
      | Queued => Ok (enter false s)
      | Iter i need => do_iter i need s
      | Poll i need it => do_poll i need it s
      | Last i need it => Ok (release (Repost i need it) s)
      | Repost i need it => do_repost i need it s
      | Gone => Blocked
      end
  | Abort =>
      match at_ s with
      | Waiting =>
          if st_stopped (str s) then Ok (set_pc Gone s)
          else leave true (upd_reader (Iter 0 true) (tail s) (tstr s) (wstart s) (cq s) (held s) (no_work (str s)) [] s)
      | _ => Blocked
      end
  | User stop => match at_ s with Waiting | Queued | Gone => step_user stop s | _ => Blocked end
  end.
Definition sane (l : label) : Prop := match l with CardRecv f _ => bytes_ok f | _ => True end.
Inductive reach : state -> Prop :=
| reach_init : reach init
| reach_next s l s' : reach s -> sane l -> next s l = Ok s' -> reach s'.
Fixpoint run_labels (ls : list label) (s : state) : res :=
  match ls with [] => Ok s | l :: ls => match next s l with Ok s => run_labels ls s | r => r end end.
End Model.
