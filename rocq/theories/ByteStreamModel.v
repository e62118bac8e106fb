(** Model of the writers that send packets through a byte stream:
    streambuf_writer::wakeup (/repo/src/send_streambuf.cpp:48-91) and
    tcp_writer::wakeup and start (/repo/src/send_tcp.cpp:106-150), on top of the
    model of the send stream (SendStreamModel: get_packet, groups_completed,
    request_wakeup, post_wakeup).

    The environment chooses how many bytes each write puts on the wire.  For a
    std::streambuf, sputn of a buffer writes any part of it
    (send_streambuf.cpp:63); for a socket, boost::asio::async_write either writes
    everything or ends with an error after any part (send_tcp.cpp:133).

    Simplified: the rate limiter may make get_packet return SLEEP at any time;
    bytes_sent and result of the item are updated once per packet instead of once
    per buffer (they are only used by the writer itself); the recursive call of
    wakeup on send_tcp.cpp:131 is a jump; the handler of a timer or of a
    connection attempt is a posted wakeup.  The bytes of a packet
    (packet_generator::next_packet) are given by [wire]: the header in the
    scratch space and the pieces of payload. *)
From Coq Require Import ZArith List Bool.
From Verif Require Import Base ConcBase SendStreamModel.
Import ListNotations.
Open Scope Z_scope.

Inductive bkind := Streambuf | Tcp.
Inductive presult := RSleep | REmpty | RSuccess.
(** [BLoop i g]: about to call get_packet for the [i]-th time in this wakeup,
    [g] groups finished in it.  [BBuf i g bufs acc last]: [bufs] are the buffers
    of the packet still to be written, [acc] bytes of it have been.  [BEnd]: about
    to call groups_completed.  [BComp]: inside it.  [BFinal]: after it. *)
Inductive bpc :=
| BIdle
| BLoop (i g : nat)
| BBuf (i g : nat) (bufs : list (list Z)) (acc : Z) (last : bool)
| BEnd (r : presult) (g : nat)
| BComp (r : presult)
| BFinal (r : presult).
Record bst := { b_s : sst; b_pc : bpc }.
(** Events: those of the send stream, and bytes put on the wire. *)
Inductive bev := BSev (e : sev) | BOut (l : list Z).
Inductive blabel :=
| BUser (l : slabel)                 (* user threads and posted handlers *)
| BWake
| BGet (sleep : bool)
| BPut (n : nat) (err : Z)           (* what the write did *)
| BGroups
| BNext
| BDone.

(** boost::asio::error::eof *)
Definition err_eof : Z := 2.
(** send_streambuf.cpp:50 *)
Definition batch_max : nat := 64.

Definition user_label (l : slabel) : bool :=
  match l with LSend _ _ | LUser _ | LFlush _ | LSetSeq _ _ | LIo _ => true | _ => false end.
(** A step of the send stream, with the next program counter. *)
Definition via (s : sst) (l : slabel) (next : sst -> list sev -> bpc) : option (bst * list bev) :=
  match s_step_fn s l with
  | Ok s' e => Some ({| b_s := s'; b_pc := next s' e |}, map BSev e)
  | _ => None
  end.

Section Kind.
Variable kind : bkind.
Variable wire : pkt -> list Z * list (list Z).

(** The packet has been dealt with: send_streambuf.cpp:65-75, send_tcp.cpp:126-131. *)
Definition end_packet (s : sst) (i g : nat) (acc err : Z) (last : bool) : option (bst * list bev) :=
  let g' := if last then S g else g in
  via s (LWritten acc err) (fun _ _ =>
    match kind with
    | Streambuf => if Nat.ltb (S i) batch_max then BLoop (S i) g' else BEnd RSuccess g'
    | Tcp => BEnd RSuccess g'
    end).

Definition b_step (b : bst) (l : blabel) : option (bst * list bev) :=
  let s := b_s b in
  match l, b_pc b with
  | BUser l, pc => if user_label l then via s l (fun _ _ => pc) else None
  | BWake, BIdle => via s LStart (fun _ _ => BLoop 0 0)
  (* get_packet: send_streambuf.cpp:56-58, send_tcp.cpp:108-120 *)
  | BGet true, BLoop i g => Some ({| b_s := s; b_pc := BEnd RSleep g |}, [])
  | BGet false, BLoop i g =>
      via s LGet (fun _ e =>
        match e with
        | EPacket p _ last :: _ => BBuf i g (fst (wire p) :: snd (wire p)) 0 last
        | _ => BEnd REmpty g
        end)
  (* the writes: send_streambuf.cpp:60-71, send_tcp.cpp:122-133 *)
  | BPut n err, BBuf i g (buf :: bufs) acc last =>
      match kind with
      | Streambuf =>
          if Nat.ltb (length buf) n then None
          else
            let acc' := acc + Z.of_nat n in
            let out := BOut (firstn n buf) in
            if Nat.ltb n (length buf) then
              match end_packet s i g acc' err_eof last with None => None | Some (b', e) => Some (b', out :: e) end
            else
              match bufs with
              | [] => match end_packet s i g acc' 0 last with None => None | Some (b', e) => Some (b', out :: e) end
              | _ => Some ({| b_s := s; b_pc := BBuf i g bufs acc' last |}, [out])
              end
      | Tcp =>
          let all := concat (buf :: bufs) in
          if Nat.ltb (length all) n || (Nat.ltb n (length all) && (err =? 0)) then None
          else match end_packet s i g (acc + Z.of_nat n) err last with None => None | Some (b', e) => Some (b', BOut (firstn n all) :: e) end
      end
  (* groups_completed: send_streambuf.cpp:77-78, send_tcp.cpp:129-130 *)
  | BGroups, BEnd r g =>
      match g with
      | O => Some ({| b_s := s; b_pc := BFinal r |}, [])
      | _ => via s (LComplete g) (fun _ _ => BComp r)
      end
  | BNext, BComp r =>
      via s LNext (fun s' _ => match w_pc (s_w s') with WRun => BFinal r | _ => BComp r end)
  (* send_streambuf.cpp:80-90, send_tcp.cpp:110-119, :131 *)
  | BDone, BFinal r =>
      match r with
      | RSleep => via s LPost (fun _ _ => BIdle)
      | REmpty => via s LWait (fun _ _ => BIdle)
      | RSuccess => match kind with
                    | Streambuf => via s LPost (fun _ _ => BIdle)
                    | Tcp => Some ({| b_s := s; b_pc := BLoop 0 0 |}, [])
                    end
      end
  | _, _ => None
  end.

Fixpoint b_run (b : bst) (l : list blabel) : option (bst * list bev) :=
  match l with
  | [] => Some (b, [])
  | x :: l' => match b_step b x with
               | None => None
               | Some (b1, e1) => match b_run b1 l' with None => None | Some (b2, e2) => Some (b2, e1 ++ e2) end
               end
  end.

(** A new stream.  [connecting]: a TCP stream that has yet to connect
    (send_tcp.cpp:138-146), whose connection handler will run wakeup; otherwise
    start() is request_wakeup (send_tcp.cpp:148, send_writer.h:179). *)
Definition b_new (connecting : bool) (size nsub : Z) (n : nat) : bst :=
  let s := stream_new size nsub n in
  {| b_s := if connecting then set_posted (set_need s false) 1 else s; b_pc := BIdle |}.

Definition b_reach (connecting : bool) (size nsub : Z) (n : nat) (b : bst) (log : list bev) : Prop :=
  exists ls, b_run (b_new connecting size nsub n) ls = Some (b, log).
End Kind.
