(** The life of a TCP reader (/repo/src/recv_tcp.cpp) on top of the model of the
    stream: accepting the connection, receiving, the end of the connection, errors,
    and a user who stops or flushes the stream at any time.  The parsing is that of
    [TcpModel]; here the packets go to the stream itself.

    Undefined behaviour, failed assertions and loops that do not end are [LFault]. *)
From Coq Require Import ZArith List Bool.
From Verif Require Import Base CodecModel RecvPacketModel LiveHeapModel StreamModel TcpModel ReadersModel.
Import ListNotations.
Open Scope Z_scope.

Section Life.
Context (sc : sconfig) (max : Z).

(** recv_tcp.cpp:142-159 process_buffer, with parse_packet :118-140 giving the packet
    to the stream; the last result: read more. *)
Fixpoint life_loop (fuel : nat) (c : tcp) (x : work) : option (tcp * work * bool) :=
  match fuel with
  | O => None
  | S fuel' =>
      if negb (tc_head c <? tc_tail c) then Some (c, x, true)
      else
        match parse_packet_size max c with
        | None => None
        | Some (c1, true) => Some (c1, x, true)
        | Some (c1, false) =>
            match skip_bytes c1 with
            | (c2, true) => Some (c2, x, true)
            | (c2, false) =>
                if tc_pkt c2 =? 0 then life_loop fuel' c2 x
                else if tc_tail c2 - tc_head c2 <? tc_pkt c2 then Some (c2, x, true)
                else
                  match parse_packet c2 with
                  | None => None
                  | Some (c3, []) => life_loop fuel' c3 x
                  | Some (c3, p :: _) =>
                      match add sc x p with
                      | None => None
                      | Some x' => if is_stopped x' then Some (c3, x', false) else life_loop fuel' c3 x'
                      end
                  end
            end
        end
  end.

(** What an operation on a socket gives: data (already stored in the buffer by the
    operating system), the end of the connection, or another error. *)
Inductive answer := AData (chunk : list Z) | AEof | AErr.

(** :92-116 packet_handler; bound_handler has already asked what :101 asks *)
Definition packet_handler (c : tcp) (a : answer) (x : work) : option (tcp * work * bool) :=
  match a with
  | AData chunk =>
      match store_chunk c chunk with
      | None => None
      | Some c1 => life_loop (S (Z.to_nat (tc_tail c1 - tc_head c1))) c1 x
      end
  | AEof => Some (c, set_stop x, false)
  | AErr => Some (c, x, false)
  end.
(** :218-231 accept_handler; [ok]: no error *)
Definition accept_handler (c : tcp) (ok : bool) (x : work) : option (tcp * work * bool) := Some (c, x, ok).

(** The reader: waits for a connection, waits for data, or has no operation
    outstanding, and never will have one again. *)
Inductive phase := PAccept | PRecv | PIdle.
Record life := { l_stream : stream; l_tcp : tcp; l_phase : phase; l_rs : list bool }.
(** :56-70 start: a connection is waited for; [fill]: what new[] gives *)
Definition life_new (fill : list Z) : life := {| l_stream := stream_new sc; l_tcp := tcp_new max fill; l_phase := PAccept; l_rs := [] |}.

Inductive llabel := LAccept (ok : bool) | LAnswer (a : answer) | LUser (stop : bool).
Inductive lres := LFault | LBlocked | LOk (t : life).

(** bound_handler (include/spead2/recv_stream.h:857-866) around a handler, and
    enqueue_receive (:233-254) if it asks for more *)
Definition life_handle (t : life) (f : work -> option (tcp * work * bool)) : lres :=
  let s := l_stream t in
  if st_stopped s then LOk {| l_stream := s; l_tcp := l_tcp t; l_phase := PIdle; l_rs := l_rs t |}
  else
    match f {| k_s := s; k_b := batch_new s; k_rs := [] |} with
    | None => LFault
    | Some (c, x, more) =>
        match (if more then enqueue_receive max c else Some c), batch_end sc (k_s x) (k_b x) with
        | Some c', Some s' => LOk {| l_stream := s'; l_tcp := c'; l_phase := if more then PRecv else PIdle; l_rs := l_rs t ++ k_rs x |}
        | _, _ => LFault
        end
    end.

(** The operating system gives at least one byte and at most as many as fit; none if
    it was given no room. *)
Definition os_gives (c : tcp) (a : answer) : bool :=
  match a with AData chunk => (zlen chunk <=? room max c) && ((0 <? zlen chunk) || (room max c =? 0)) | _ => true end.
Definition life_step (t : life) (l : llabel) : lres :=
  match l with
  | LAccept ok => match l_phase t with PAccept => life_handle t (accept_handler (l_tcp t) ok) | _ => LBlocked end
  | LAnswer a => match l_phase t with
                 | PRecv => if os_gives (l_tcp t) a then life_handle t (packet_handler (l_tcp t) a) else LBlocked
                 | _ => LBlocked end
  | LUser st =>
      match step sc (l_stream t) (if st then Stop else Flush) with
      | None => LFault
      | Some (s, _) => LOk {| l_stream := s; l_tcp := l_tcp t; l_phase := l_phase t; l_rs := l_rs t |}
      end
  end.
Fixpoint life_run (ls : list llabel) (t : life) : lres :=
  match ls with [] => LOk t | l :: ls' => match life_step t l with LOk t' => life_run ls' t' | r => r end end.
End Life.
