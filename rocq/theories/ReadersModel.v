(** The readers that hand whole packets to the stream:
    udp_reader_base::process_one_packet (/repo/src/recv_udp_base.cpp:31-59),
    udp_reader::packet_handler (/repo/src/recv_udp.cpp:193-278),
    udp_pcap_file_reader::run (/repo/src/recv_udp_pcap.cpp:45-97),
    mem_to_stream (/repo/src/recv_stream.cpp:687-705) and mem_reader
    (/repo/src/recv_mem.cpp:26-47), on top of the model of the stream.

    [None] is undefined behaviour (in the decoder or the stream, a packet added after the
    stream has stopped, a loop that does not end).  Simplified: the branch without
    recvmmsg (recv_udp.cpp:263), which is a call with one message, is left out; so is the
    compilation of the pcap filter: the file is what passes it. *)
From Coq Require Import ZArith List Bool.
From Verif Require Import Base CodecModel RecvPacketModel LiveHeapModel StreamModel RawModel.
Import ListNotations.
Open Scope Z_scope.

(** What a handler works on: the stream, the add_packet_state and the results of
    add_packet so far. *)
Record work := { k_s : stream; k_b : batch; k_rs : list bool }.
(** include/spead2/recv_stream.h:734 *)
Definition is_stopped (x : work) : bool := ba_stopped (k_b x).
(** recv_stream.h:745-749, with its assertion *)
Definition add (sc : sconfig) (x : work) (p : rpkt) : option work :=
  if is_stopped x then None
  else match stream_add_packet sc (k_s x) (k_b x) p with
       | None => None
       | Some (s, b, r) => Some {| k_s := s; k_b := b; k_rs := k_rs x ++ [r] |}
       end.
(** recv_stream.h:735-736 *)
Definition set_stop (x : work) : work :=
  {| k_s := k_s x;
     k_b := {| ba_packets := ba_packets (k_b x); ba_complete := ba_complete (k_b x); ba_evicted := ba_evicted (k_b x);
               ba_single := ba_single (k_b x); ba_dist := ba_dist (k_b x); ba_stopped := true |};
     k_rs := k_rs x |}.

(** recv_udp_base.cpp:31-59; [d]: the bytes at [data].  The second result: whether the
    packet caused the stream to stop. *)
Definition process_one_packet (sc : sconfig) (x : work) (d : list Z) (max_size : Z) : option (work * bool) :=
  if (zlen d <=? max_size) && (0 <? zlen d) then
    match decode_packet d with
    | OOB => None
    | Reject => Some (x, false)
    | Accept h size =>
        if size =? zlen d then
          match add sc x (rpkt_of d h) with None => None | Some x' => Some (x', is_stopped x') end
        else Some (x, false)
    end
  else Some (x, false).

(** bound_handler, recv_stream.h:857-866, with the constructor and the destructor of
    add_packet_state (recv_stream.cpp:440-474).  The result says also whether the handler
    has started the next wait, which all of them do unless the stream has stopped. *)
Definition bound_handler (sc : sconfig) (s : stream) (f : work -> option work) : option (stream * list bool * bool) :=
  if st_stopped s then Some (s, [], false)
  else match f {| k_s := s; k_b := batch_new s; k_rs := [] |} with
       | None => None
       | Some x => match batch_end sc (k_s x) (k_b x) with None => None | Some s' => Some (s', k_rs x, negb (is_stopped x)) end
       end.

(** ** UDP *)
(** An element of msgvec after recvmmsg: the bytes (msg_len of them) and the segment size
    in its control message, if there is one *)
Record msg := { m_data : list Z; m_seg : option Z }.
Section Udp.
Context (sc : sconfig) (use_gro : bool) (max_size : Z).
(** recv_udp.cpp:245-256 *)
Fixpoint seg_loop (fuel : nat) (seg offset : Z) (m : list Z) (x : work) (stopped : bool) : option (work * bool) :=
  if (offset <? zlen m) && negb stopped then
    match fuel with
    | O => None
    | S f =>
        match process_one_packet sc x (slice m offset (Z.min seg (zlen m - offset))) max_size with
        | None => None
        | Some (x', st) => seg_loop f seg (offset + seg) m x' st
        end
    end
  else Some (x, stopped).
(** :226-261 *)
Fixpoint msg_loop (ms : list msg) (x : work) (stopped : bool) : option (work * bool) :=
  match ms with
  | [] => Some (x, stopped)
  | m :: ms' =>
      if stopped then Some (x, stopped)
      else
        let seg := if use_gro then match m_seg m with Some g => g | None => -1 end else -1 in
        match (if 0 <? seg then seg_loop (S (length (m_data m))) seg 0 (m_data m) x stopped
               else process_one_packet sc x (m_data m) max_size) with
        | None => None
        | Some (x', st) => msg_loop ms' x' st
        end
  end.
(** :203-278.  [None]: the wait or recvmmsg has failed *)
Definition udp_handler (r : option (list msg)) (s : stream) : option (stream * list bool * bool) :=
  bound_handler sc s (fun x => match r with
                               | None => Some x
                               | Some ms => option_map fst (msg_loop ms x false)
                               end).

(** The reader and its stream.  [u_wait]: a wait is outstanding. *)
Record ureader := { u_stream : stream; u_wait : bool; u_rs : list bool }.
Definition u_new : ureader := {| u_stream := stream_new sc; u_wait := true; u_rs := [] |}.
Inductive ulabel :=
| URecv (ms : list msg)   (* the wait is over, and recvmmsg gives this *)
| UFail
| UUser (stop : bool).    (* the user stops or flushes the stream *)
Inductive ures := UFault | UBlocked | UOk (u : ureader).
Definition u_handle (u : ureader) (r : option (list msg)) : ures :=
  if u_wait u then
    match udp_handler r (u_stream u) with
    | None => UFault
    | Some (s, rs, w) => UOk {| u_stream := s; u_wait := w; u_rs := u_rs u ++ rs |}
    end
  else UBlocked.
Definition u_step (u : ureader) (l : ulabel) : ures :=
  match l with
  | URecv ms => u_handle u (Some ms)
  | UFail => u_handle u None
  | UUser st =>
      match step sc (u_stream u) (if st then Stop else Flush) with
      | None => UFault
      | Some (s, _) => UOk {| u_stream := s; u_wait := u_wait u; u_rs := u_rs u |}
      end
  end.
Fixpoint u_run (ls : list ulabel) (u : ureader) : ures :=
  match ls with [] => UOk u | l :: ls' => match u_step u l with UOk u' => u_run ls' u' | r => r end end.
End Udp.

(** ** Packet capture files *)
(** What pcap_next_ex gives: a frame with its bytes (caplen of them) and h->len, or an
    error; after the last one, always -2 *)
Inductive entry := Frame (bytes : list Z) (len : Z) | ReadError.
Definition pcap_batch : nat := 64.                       (* recv_udp_pcap.cpp:47 *)
Section Pcap.
Context (sc : sconfig) (k : link).
(** :57-84.  The frame is looked at with length h->len. *)
Definition pcap_frame (x : work) (bytes : list Z) (len : Z) : option work :=
  if zlen bytes <? len then Some x
  else
    let f := slice bytes 0 len in
    match udp_from k f with
    | PFault => None
    | PErr _ => Some x
    | POk b => option_map fst (process_one_packet sc x (slice f (pb_off b) (pb_len b)) (pb_len b))
    end.
(** The loop, :49-90; what is left of the file *)
Fixpoint pcap_loop (pass : nat) (file : list entry) (x : work) : option (work * list entry) :=
  match pass with
  | O => Some (x, file)
  | S pass' =>
      if is_stopped x then Some (x, file)
      else
        match file with
        | [] => pcap_loop pass' [] (set_stop x)
        | ReadError :: file' => pcap_loop pass' file' x
        | Frame bytes len :: file' => match pcap_frame x bytes len with None => None | Some x' => pcap_loop pass' file' x' end
        end
  end.
(** One call of run, :45-97 *)
Definition pcap_run (s : stream) (file : list entry) : option (stream * list bool * bool * list entry) :=
  if st_stopped s then Some (s, [], false, file)
  else match pcap_loop pcap_batch file {| k_s := s; k_b := batch_new s; k_rs := [] |} with
       | None => None
       | Some (x, file') => match batch_end sc (k_s x) (k_b x) with None => None | Some s' => Some (s', k_rs x, negb (is_stopped x), file') end
       end.
(** All calls; [None] also if the number of calls is not enough *)
Fixpoint pcap_all (calls : nat) (s : stream) (rs : list bool) (file : list entry) : option (stream * list bool) :=
  match calls with
  | O => None
  | S n => match pcap_run s file with
           | None => None
           | Some (s', rs', again, file') => if again then pcap_all n s' (rs ++ rs') file' else Some (s', rs ++ rs')
           end
  end.
End Pcap.

(** ** Memory *)
Section Mem.
Context (sc : sconfig).
(** mem_to_stream, recv_stream.cpp:687-705; the result: how many bytes were used *)
Fixpoint mem_loop (fuel : nat) (d : list Z) (pos : Z) (x : work) : option (work * Z) :=
  if (pos <? zlen d) && negb (is_stopped x) then
    match fuel with
    | O => None
    | S f =>
        let rest := slice d pos (zlen d - pos) in
        match decode_packet rest with
        | OOB => None
        | Reject => Some (x, pos)
        | Accept h size =>
            if 0 <? size then match add sc x (rpkt_of rest h) with None => None | Some x' => mem_loop f d (pos + size) x' end
            else Some (x, pos)
        end
    end
  else Some (x, pos).
(** mem_to_stream(stream_base &, ...), :707-711.  The state is not checked for a stopped
    stream; then is_stopped ends the loop at once. *)
Definition mem_to_stream (s : stream) (d : list Z) : option (stream * list bool * Z) :=
  if st_stopped s then Some (s, [], 0)
  else match mem_loop (S (length d)) d 0 {| k_s := s; k_b := batch_new s; k_rs := [] |} with
       | None => None
       | Some (x, pos) => match batch_end sc (k_s x) (k_b x) with None => None | Some s' => Some (s', k_rs x, pos) end
       end.
(** The handler of mem_reader, recv_mem.cpp:34-44 *)
Definition mem_handler (s : stream) (d : list Z) : option (stream * list bool * bool) :=
  bound_handler sc s (fun x => option_map (fun r => set_stop (fst r)) (mem_loop (S (length d)) d 0 x)).
End Mem.
