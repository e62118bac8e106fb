(** Model of the TCP reader: /repo/src/recv_tcp.cpp:92-254.

    The buffer is a list of bytes; pointers into it are offsets.  [None] is
    undefined behaviour (reading or writing outside the buffer, a failed
    assertion, an overlapping memcpy) - or a loop that does not end.  The
    stream behind [state] is represented by the list of packets given to it so
    far, and by a function of that list saying whether it has stopped (it
    stops by itself when a packet carries the end-of-stream item). *)
From Coq Require Import ZArith List Bool.
From Verif Require Import Base RecvPacketModel LiveHeapModel.
Import ListNotations.
Open Scope Z_scope.

(** include/spead2/recv_tcp.h:52-64 *)
Record tcp := {
  tc_buf : list Z;
  tc_head : Z;
  tc_tail : Z;
  tc_pkt : Z;       (* pkt_size; 0: no packet being parsed *)
  tc_skip : Z       (* to_skip *)
}.
Definition pkts_per_buffer : Z := 64.
Definition bufsize (max : Z) : Z := max * pkts_per_buffer.
Definition set_head (s : tcp) (h : Z) : tcp :=
  {| tc_buf := tc_buf s; tc_head := h; tc_tail := tc_tail s; tc_pkt := tc_pkt s; tc_skip := tc_skip s |}.
(** The bytes [head, tail). *)
Definition tc_data (s : tcp) : list Z := slice (tc_buf s) (tc_head s) (tc_tail s - tc_head s).
Definition in_buffer (s : tcp) : bool :=
  (0 <=? tc_head s) && (tc_head s <=? tc_tail s) && (tc_tail s <=? zlen (tc_buf s)).

(** :161-202 parse_packet_size *)
Definition parse_packet_size (max : Z) (s : tcp) : option (tcp * bool) :=
  if 0 <? tc_pkt s then Some (s, false)
  else if negb (in_buffer s) then None
  else
    match get_packet_size (tc_data s) with
    | None => None
    | Some r =>
        if r =? -1 then Some (set_head s (tc_head s + 8), false)
        else if r =? 0 then
          if tc_tail s - tc_head s =? bufsize max then Some (set_head s (tc_tail s), false) else Some (s, true)
        else Some ({| tc_buf := tc_buf s; tc_head := tc_head s; tc_tail := tc_tail s; tc_pkt := r;
                      tc_skip := if max <? r then r else tc_skip s |}, false)
    end.

(** :204-216 skip_bytes *)
Definition skip_bytes (s : tcp) : tcp * bool :=
  if tc_skip s =? 0 then (s, false)
  else if tc_tail s =? tc_head s then (s, true)
  else
    let diff := Z.min (tc_tail s - tc_head s) (tc_skip s) in
    let skip := tc_skip s - diff in
    ({| tc_buf := tc_buf s; tc_head := tc_head s + diff; tc_tail := tc_tail s;
        tc_pkt := if skip =? 0 then 0 else tc_pkt s; tc_skip := skip |}, 0 <? skip).

(** :118-140 parse_packet; the packet given to the stream, if any *)
Definition parse_packet (s : tcp) : option (tcp * list rpkt) :=
  if negb ((0 <? tc_pkt s) && (tc_pkt s <=? tc_tail s - tc_head s) && in_buffer s) then None
  else
    let d := slice (tc_buf s) (tc_head s) (tc_pkt s) in
    let s1 := {| tc_buf := tc_buf s; tc_head := tc_head s + tc_pkt s; tc_tail := tc_tail s;
                 tc_pkt := 0; tc_skip := tc_skip s |} in
    match decode_packet d with
    | OOB => None
    | Reject => Some (s1, [])
    | Accept h size => if size =? tc_pkt s then Some (s1, [rpkt_of d h]) else Some (s1, [])
    end.

(** :142-159 the loop of process_buffer; the result is the new state, all the
    packets given to the stream so far, and whether to read more. *)
Fixpoint process_loop (fuel : nat) (max : Z) (stop : list rpkt -> bool) (s : tcp) (hist : list rpkt)
  : option (tcp * list rpkt * bool) :=
  match fuel with
  | O => None
  | S fuel' =>
      if negb (tc_head s <? tc_tail s) then Some (s, hist, true)
      else
        match parse_packet_size max s with
        | None => None
        | Some (s1, true) => Some (s1, hist, true)
        | Some (s1, false) =>
            match skip_bytes s1 with
            | (s2, true) => Some (s2, hist, true)
            | (s2, false) =>
                if tc_pkt s2 =? 0 then process_loop fuel' max stop s2 hist
                else if tc_tail s2 - tc_head s2 <? tc_pkt s2 then Some (s2, hist, true)
                else
                  match parse_packet s2 with
                  | None => None
                  | Some (s3, []) => process_loop fuel' max stop s3 hist
                  | Some (s3, ps) =>
                      if stop (hist ++ ps) then Some (s3, hist ++ ps, false)
                      else process_loop fuel' max stop s3 (hist ++ ps)
                  end
            end
        end
  end.
(** The receive writes the bytes at [tail] (:251-253); process_buffer then
    advances [tail] (:144). *)
Definition store_chunk (s : tcp) (chunk : list Z) : option tcp :=
  if (0 <=? tc_tail s) && (tc_tail s + zlen chunk <=? zlen (tc_buf s)) then
    Some {| tc_buf := slice (tc_buf s) 0 (tc_tail s) ++ chunk ++
                      slice (tc_buf s) (tc_tail s + zlen chunk) (zlen (tc_buf s) - (tc_tail s + zlen chunk));
            tc_head := tc_head s; tc_tail := tc_tail s + zlen chunk; tc_pkt := tc_pkt s; tc_skip := tc_skip s |}
  else None.
Definition process_buffer (max : Z) (stop : list rpkt -> bool) (s : tcp) (hist : list rpkt) : option (tcp * list rpkt * bool) :=
  process_loop (S (Z.to_nat (tc_tail s - tc_head s))) max stop s hist.

(** :233-254 enqueue_receive: making room *)
Definition enqueue_receive (max : Z) (s : tcp) : option tcp :=
  if negb ((tc_head s <=? tc_tail s) && (0 <=? tc_head s) && (tc_tail s <=? zlen (tc_buf s))) then None
  else if bufsize max / 2 <? tc_head s then
    let len := tc_tail s - tc_head s in
    if tc_head s <? len then None       (* overlapping memcpy *)
    else Some {| tc_buf := tc_data s ++ slice (tc_buf s) len (zlen (tc_buf s) - len);
                 tc_head := 0; tc_tail := len; tc_pkt := tc_pkt s; tc_skip := tc_skip s |}
  else Some s.
(** :251 the size given to async_receive *)
Definition room (max : Z) (s : tcp) : Z := bufsize max - tc_tail s.

(** The reader, the packets delivered, and whether a receive is pending. *)
Record treader := { tr_tcp : tcp; tr_hist : list rpkt; tr_active : bool }.

(** :42-54 constructor and :218-231 accept_handler without error *)
Definition tcp_new (max : Z) (fill : list Z) : tcp :=
  {| tc_buf := fill; tc_head := 0; tc_tail := 0; tc_pkt := 0; tc_skip := 0 |}.
Definition reader_start (max : Z) (fill : list Z) : option treader :=
  match enqueue_receive max (tcp_new max fill) with
  | None => None
  | Some s => Some {| tr_tcp := s; tr_hist := []; tr_active := true |}
  end.

(** :92-116 packet_handler for a successful receive of [chunk].  (After an
    error or the end of the connection no further receive is made, and the
    packets delivered do not change.) *)
Definition receive (max : Z) (stop : list rpkt -> bool) (t : treader) (chunk : list Z) : option treader :=
  match store_chunk (tr_tcp t) chunk with
  | None => None
  | Some s =>
      if stop (tr_hist t) then Some {| tr_tcp := tr_tcp t; tr_hist := tr_hist t; tr_active := false |}
      else
        match process_buffer max stop s (tr_hist t) with
        | None => None
        | Some (s1, hist, false) => Some {| tr_tcp := s1; tr_hist := hist; tr_active := false |}
        | Some (s1, hist, true) =>
            match enqueue_receive max s1 with
            | None => None
            | Some s2 => Some {| tr_tcp := s2; tr_hist := hist; tr_active := true |}
            end
        end
  end.

(** What the operating system may return for a pending receive: at least one
    byte and at most as many as fit; nothing if the buffer given to it was
    empty. *)
Definition may_receive (max : Z) (t : treader) (chunk : list Z) : Prop :=
  tr_active t = true /\ bytes_ok chunk /\ zlen chunk <= room max (tr_tcp t) /\
  (chunk = [] -> room max (tr_tcp t) = 0).

(** Reader states reachable by receiving [bytes] (in whatever portions). *)
Inductive tcp_reach (max : Z) (fill : list Z) (stop : list rpkt -> bool) : list Z -> treader -> Prop :=
| tcp_reach_start t : reader_start max fill = Some t -> tcp_reach max fill stop [] t
| tcp_reach_recv bytes t chunk t' :
    tcp_reach max fill stop bytes t -> may_receive max t chunk -> receive max stop t chunk = Some t' ->
    tcp_reach max fill stop (bytes ++ chunk) t'.
