(** The UDP writer with sendmmsg and generic segmentation offload
    (src/send_udp.cpp), as a function of what the kernel answers, and the
    splitting of messages by the UDP reader with GRO (src/recv_udp.cpp). *)
From Coq Require Import ZArith List Bool Arith.
From Verif Require Import Base ConcBase.
Import ListNotations.
Open Scope Z_scope.

(** A transmit_packet (include/spead2/send_writer.h:182-189): its buffers, its
    substream and whether it is the last packet of a group of heaps.  The
    queue item is left out: what happens to the item of a packet is in [outcome]. *)
Record pkt := { k_bufs : list (list Z); k_sub : nat; k_last : bool }.
Definition k_bytes (p : pkt) : list Z := concat (k_bufs p).
(** transmit_packet::size, the size of the buffers (src/send_writer.cpp:140) *)
Definition k_size (p : pkt) : Z := zlen (k_bytes p).

(** One mmsghdr: msg_iov as an index into msg_iov, msg_iovlen, and the endpoint. *)
Record msg := { g_iov : nat; g_n : nat; g_sub : nat }.

(** src/send_udp.cpp:52-62 *)
Definition max_batch : nat := 64.
Definition gso_inactive : Z := 0.
Definition gso_disabled : Z := -1.
Definition gso_probe : Z := -2.
Definition max_gso_message_size : Z := 65535.

(** item->bytes_sent is increased for [Sent], item->result is set for [Failed]. *)
Inductive outcome := Sent | Failed.

(** The members of udp_writer (:52-73), the arguments of the pending
    send_packets, and what the outside sees: the datagrams on the wire, what
    became of each packet, and the sum of the arguments of groups_completed.
    [u_sock] is the UDP_SEGMENT option of the socket; [u_hist] are the packets
    taken so far by get_packet. *)
Record ust := {
  u_cur : Z; u_sock : Z;
  u_pk : list pkt; u_merged : list bool; u_iov : list (list Z); u_msgs : list msg;
  u_fp : nat; u_lp : nat; u_fm : nat; u_lm : nat;
  u_hist : list pkt; u_wire : list (nat * list Z); u_res : list outcome; u_groups : Z
}.

Definition u_init : ust :=
  {| u_cur := gso_inactive; u_sock := 0; u_pk := []; u_merged := repeat false max_batch; u_iov := [];
     u_msgs := repeat {| g_iov := 0; g_n := 0; g_sub := 0 |} max_batch;
     u_fp := 0; u_lp := 0; u_fm := 0; u_lm := 0; u_hist := []; u_wire := []; u_res := []; u_groups := 0 |}.

(** prepare_msgvec, :214-250, with SPEAD2_USE_GSO: [n] packets left from [i].
    [None]: an array index is out of range. *)
Fixpoint prepare (pk : list pkt) (gso : Z) (first n i : nat) (ms : Z) (iov m : nat) (msgs : list msg) (mrg : list bool)
  : option (nat * list msg * list bool) :=
  match n with
  | O => Some (m, msgs, mrg)
  | S n' =>
      match nth_error pk i with
      | None => None
      | Some p =>
          let fresh := (i =? first)%nat
                       || match nth_error pk (i - 1) with
                          | Some q => negb (k_size q =? gso) || negb (k_sub p =? k_sub q)%nat
                          | None => true
                          end
                       || (max_gso_message_size <? ms + k_size p) in
          if fresh then
            if (m <? max_batch)%nat && (i <? max_batch)%nat then
              prepare pk gso first n' (S i) (k_size p) (iov + length (k_bufs p)) (S m)
                (upd msgs m {| g_iov := iov; g_n := length (k_bufs p); g_sub := k_sub p |}) (upd mrg i false)
            else None
          else
            match m with
            | O => None
            | S m' =>
                match nth_error msgs m' with
                | None => None
                | Some h =>
                    if (i <? max_batch)%nat then
                      prepare pk gso first n' (S i) (ms + k_size p) (iov + length (k_bufs p)) m
                        (upd msgs m' {| g_iov := g_iov h; g_n := g_n h + length (k_bufs p); g_sub := g_sub h |}) (upd mrg i true)
                    else None
                end
            end
      end
  end.

(** The do loops of :162-168 and :183-189: to the next packet that is not merged. *)
Fixpoint adv (n : nat) (mrg : list bool) (lp fp : nat) : nat :=
  match n with
  | O => S fp
  | S n' => if (S fp <? lp)%nat && nth (S fp) mrg false then adv n' mrg lp (S fp) else S fp
  end.

(** The kernel: a message is cut every [g] bytes when UDP_SEGMENT is [g] > 0. *)
Fixpoint cut (fuel : nat) (g : Z) (l : list Z) : list (list Z) :=
  match fuel with
  | O => [l]
  | S f => if zlen l <=? g then [l] else slice l 0 g :: cut f g (skipn (Z.to_nat g) l)
  end.
Definition segments (g : Z) (l : list Z) : list (list Z) := if g <=? 0 then [l] else cut (length l) g l.

(** One message has been dealt with: [o] for all its packets (:162-169, :181-191). *)
Definition msg_done (o : outcome) (s : ust) : ust :=
  let fp' := adv (u_lp s) (u_merged s) (u_lp s) (u_fp s) in
  let batch := firstn (fp' - u_fp s) (skipn (u_fp s) (u_pk s)) in
  {| u_cur := u_cur s; u_sock := u_sock s; u_pk := u_pk s; u_merged := u_merged s; u_iov := u_iov s; u_msgs := u_msgs s;
     u_fp := fp'; u_lp := u_lp s; u_fm := S (u_fm s); u_lm := u_lm s; u_hist := u_hist s;
     u_wire := match o, nth_error (u_msgs s) (u_fm s) with
               | Sent, Some h => u_wire s ++ map (pair (g_sub h)) (segments (u_sock s) (concat (firstn (g_n h) (skipn (g_iov h) (u_iov s)))))
               | _, _ => u_wire s
               end;
     u_res := u_res s ++ repeat o (fp' - u_fp s);
     u_groups := u_groups s + zlen (filter k_last batch) |}.
Fixpoint msgs_done (k : nat) (s : ust) : ust := match k with O => s | S k' => msgs_done k' (msg_done Sent s) end.

Definition set_gso (cur sock : Z) (s : ust) : ust :=
  {| u_cur := cur; u_sock := sock; u_pk := u_pk s; u_merged := u_merged s; u_iov := u_iov s; u_msgs := u_msgs s;
     u_fp := u_fp s; u_lp := u_lp s; u_fm := u_fm s; u_lm := u_lm s; u_hist := u_hist s; u_wire := u_wire s; u_res := u_res s; u_groups := u_groups s |}.

(** msgvec := prepare_msgvec(first_packet, last_packet, first_msg, iov, gso) *)
Definition do_prepare (gso : Z) (iov : nat) (s : ust) : option ust :=
  match prepare (u_pk s) gso (u_fp s) (u_lp s - u_fp s) (u_fp s) 0 iov (u_fm s) (u_msgs s) (u_merged s) with
  | None => None
  | Some (m, msgs, mrg) =>
      Some {| u_cur := u_cur s; u_sock := u_sock s; u_pk := u_pk s; u_merged := mrg; u_iov := u_iov s; u_msgs := msgs;
              u_fp := u_fp s; u_lp := u_lp s; u_fm := u_fm s; u_lm := m; u_hist := u_hist s; u_wire := u_wire s; u_res := u_res s; u_groups := u_groups s |}
  end.

(** Results of setsockopt(UDP_SEGMENT) *)
Inductive sres := SetOk | SetNoProto | SetFail.
Definition set_ok (r : sres) : bool := match r with SetOk => true | _ => false end.

Inductive label :=
| Wake (pks : list pkt) (r1 r2 : sres)   (* wakeup gets these packets; results of its one or two calls of set_gso_size *)
| KSent (k : nat)                        (* sendmmsg sends k messages *)
| KAgain                                 (* EAGAIN or EWOULDBLOCK *)
| KErr (r : sres).                       (* another error; result of set_gso_size(0), if it is called *)

Inductive res := Blocked | Fault | Ok (s : ust).
Definition of_opt (o : option ust) : res := match o with None => Fault | Some s => Ok s end.

(** The new current_gso_size of wakeup, :280-308, and the option of the socket. *)
Definition new_gso (max : Z) (cur sock : Z) (r1 r2 : sres) : Z * Z :=
  if negb (max =? cur) && (0 <=? cur) then
    match r1 with
    | SetOk => (max, max)
    | SetNoProto => (gso_disabled, sock)
    | SetFail => if set_ok r2 then (0, 0) else (cur, sock)
    end
  else (cur, sock).

(** Simplified: sendmmsg does not return 0 for a positive number of messages,
    and int does not overflow. *)
Definition step (s : ust) (l : label) : res :=
  match l with
  | Wake pks r1 r2 =>                                                   (* :252-324 *)
      if negb (u_fm s =? u_lm s)%nat then Blocked
      else if (length pks =? 0)%nat || (max_batch <? length pks)%nat then Blocked
      else
        let max := fold_right Z.max 0 (map k_size pks) in
        let '(cur, sock) := new_gso max (u_cur s) (u_sock s) r1 r2 in
        of_opt (do_prepare cur 0
          {| u_cur := cur; u_sock := sock; u_pk := pks; u_merged := u_merged s; u_iov := flat_map k_bufs pks; u_msgs := u_msgs s;
             u_fp := 0; u_lp := length pks; u_fm := 0; u_lm := 0; u_hist := u_hist s ++ pks; u_wire := u_wire s; u_res := u_res s; u_groups := u_groups s |})
  | KSent k =>                                                          (* :172-192 *)
      if (1 <=? k)%nat && (u_fm s + k <=? u_lm s)%nat then
        let s' := msgs_done k s in
        Ok (if u_cur s =? gso_probe then set_gso gso_disabled (u_sock s') s' else s')
      else Blocked
  | KAgain => if (u_fm s <? u_lm s)%nat then Ok s else Blocked
  | KErr r =>                                                           (* :132-171 *)
      if negb (u_fm s <? u_lm s)%nat then Blocked
      else if u_cur s =? gso_probe then Ok (msg_done Failed (set_gso gso_inactive (u_sock s) s))
      else if 0 <? u_cur s then
             if set_ok r then
               match nth_error (u_msgs s) (u_fm s) with
               | None => Fault
               | Some h => of_opt (do_prepare 0 (g_iov h) (set_gso gso_probe 0 s))
               end
             else Ok (msg_done Failed s)
      else Ok (msg_done Failed s)
  end.

(** udp_reader::packet_handler with use_gro, src/recv_udp.cpp:246-260: the
    pieces of a message given to process_one_packet when the kernel reports
    the segment size, for as long as the stream is not stopped. *)
Fixpoint gro_pieces (fuel : nat) (seg offset : Z) (m : list Z) : list (list Z) :=
  match fuel with
  | O => []
  | S f => if offset <? zlen m then slice m offset (Z.min seg (zlen m - offset)) :: gro_pieces f seg (offset + seg) m else []
  end.
(** :231-267; [seg] is -1 without a control message *)
Definition gro_split (seg : Z) (m : list Z) : list (list Z) :=
  if 0 <? seg then gro_pieces (length m) seg 0 m else [m].
