(** How the ibverbs sender puts a packet on the wire: src/send_udp_ibv.cpp:49-85,
    :316-390 (one round of the loop of wakeup) and :468-552 (the constructor).

    A slot is the list of the bytes of its frame, at an address in the sender's own
    buffer.  User memory is a function from addresses to bytes.  The frame is accessed
    by the checked functions of RawModel: an access outside the slot gives [PFault], a
    std::length_error gives [PErr].  Simplified: the length of a scatter/gather entry,
    a uint32_t, does not wrap; user memory and the sender's buffer do not overlap. *)
From Coq Require Import ZArith List Bool.
From Verif Require Import Base RawModel.
Import ListNotations.
Open Scope Z_scope.

(** memory_region, :58-85; [rg_key] is its lkey *)
Record region := { rg_ptr : Z; rg_size : Z; rg_key : Z }.
(** What the constructor is given.  [ic_key] is the lkey of the sender's own buffer;
    [ic_regions] is in the order of the configuration; an endpoint is the bytes of its
    address and its port; [ic_csum]: the device computes the IP checksum. *)
Record icfg := { ic_mps : Z; ic_key : Z; ic_regions : list region; ic_eps : list (list Z * Z);
                 ic_mac : list Z; ic_addr : list Z; ic_port : Z; ic_ttl : Z; ic_csum : bool }.
Definition max_sge : nat := 4.                            (* :49 *)
Definition header_size : Z := eth_min + ipv4_min + udp_min. (* header_length, :164-165 *)
Definition raw_size (c : icfg) : Z := ic_mps c + header_size. (* max_raw_size, :486 *)

(** The check of the constructor, :476-482: std::sort of pairs, then neighbours *)
Definition reg_le (a b : region) : bool := (rg_ptr a <? rg_ptr b) || ((rg_ptr a =? rg_ptr b) && (rg_size a <=? rg_size b)).
Fixpoint reg_insert (r : region) (l : list region) : list region :=
  match l with [] => [r] | x :: l' => if reg_le r x then r :: l else x :: reg_insert r l' end.
Definition reg_sort (l : list region) : list region := fold_right reg_insert [] l.
Fixpoint no_overlap (l : list region) : bool :=
  match l with a :: ((b :: _) as l') => (rg_ptr a + rg_size a <=? rg_ptr b) && no_overlap l' | _ => true end.

(** memory_regions: a std::set ordered by decreasing address (:73-77); emplace does
    nothing if there is an element with the same address (:522-523) *)
Fixpoint set_insert (r : region) (l : list region) : list region :=
  match l with
  | [] => [r]
  | x :: l' => if rg_ptr x <? rg_ptr r then r :: l else if rg_ptr r <? rg_ptr x then x :: set_insert r l' else l
  end.
Definition region_set (l : list region) : list region := fold_left (fun s r => set_insert r s) l [].
(** lower_bound: the first element that does not come before (:365) *)
Definition lower_bound (s : list region) (ptr : Z) : option region := find (fun r => rg_ptr r <=? ptr) s.
(** contains, :79-84 *)
Definition contains (r : region) (ptr len : Z) : bool := (rg_ptr r <=? ptr) && (ptr + len <=? rg_ptr r + rg_size r).

(** ** The constructor's part for one slot, :528-552, after its checks.  The result is the frame and the
    offset of the payload in it.  The buffer comes from mmap: it is zero. *)
Definition the_frame (c : icfg) : pbuf := {| pb_off := 0; pb_len := raw_size c |}.
Definition new_slot (c : icfg) : pres (list Z * Z) :=
  match ic_eps c with
  | [] => PErr TypeError                                       (* :468-469 std::invalid_argument *)
  | (addr0, port0) :: _ =>
      if negb (no_overlap (reg_sort (ic_regions c))) then PErr TypeError else (* :482 *)
      let f := repeat 0 (Z.to_nat (raw_size c)) in
      pbind (sized eth_min (the_frame c)) (fun fr =>
      pbind (set f fr 0 (multicast_mac addr0)) (fun f =>
      pbind (set f fr 6 (ic_mac c)) (fun f =>
      pbind (set_be f fr 12 2 2048) (fun f =>
      pbind (payload_ipv4 eth_min fr) (fun ip =>
      pbind (set_be f ip 0 1 69) (fun f =>
      pbind (set_be f ip 2 2 (ic_mps c + ipv4_min + udp_min)) (fun f =>
      pbind (set_be f ip 6 2 16384) (fun f =>
      pbind (set_be f ip 8 1 (ic_ttl c)) (fun f =>
      pbind (set_be f ip 9 1 17) (fun f =>
      pbind (set f ip 12 (ic_addr c)) (fun f =>
      pbind (set f ip 16 addr0) (fun f =>
      pbind (payload_udp f ip) (fun udp =>
      pbind (set_be f udp 0 2 (ic_port c)) (fun f =>
      pbind (set_be f udp 2 2 port0) (fun f =>
      pbind (set_be f udp 4 2 (ic_mps c + udp_min)) (fun f =>
      pbind (set_be f udp 6 2 0) (fun f =>
      pbind (udp_payload f udp) (fun pay => POk (f, pb_off pay)))))))))))))))))))
  end.

(** ** One packet *)
(** transmit_packet, include/spead2/send_writer.h:182-189.  [ip_words]: what the packet
    generator wrote to the scratch memory; [ip_len0]: the size of the first buffer, which
    is at the start of it; [ip_bufs]: address and size of the others. *)
Record ipkt := { ip_words : list Z; ip_len0 : Z; ip_bufs : list (Z * Z); ip_sub : nat }.
Definition ip_size (p : ipkt) : Z := ip_len0 p + fold_right (fun b n => snd b + n) 0 (ip_bufs p).

(** ibv_sge *)
Record sge := { e_addr : Z; e_len : Z; e_key : Z }.
Definition load (mem : Z -> Z) (a n : Z) : list Z := map (fun i => mem (a + Z.of_nat i)) (seq 0 (Z.to_nat n)).

(** :379-389; [sges] is in reverse.  [None]: the array sge is full *)
Definition add_sge (cur : sge) (sges : list sge) : option (list sge) :=
  match sges with
  | [] => None
  | prev :: rest =>
      if (e_key prev =? e_key cur) && (e_addr prev + e_len prev =? e_addr cur)
      then Some ({| e_addr := e_addr prev; e_len := e_len prev + e_len cur; e_key := e_key prev |} :: rest)
      else if Nat.ltb (length sges) max_sge then Some (cur :: sges) else None
  end.
(** The loop over the buffers, :355-390; [at_] is the address of the frame, [ct] the
    offset of copy_target in it *)
Fixpoint put_buffers (c : icfg) (mem : Z -> Z) (at_ : Z) (skip : bool) (bufs : list (Z * Z)) (f : list Z) (ct : Z) (sges : list sge) : pres (list Z * list sge) :=
  match bufs with
  | [] => POk (f, rev sges)
  | (ptr, len) :: bufs' =>
      match (if skip then match lower_bound (region_set (ic_regions c)) ptr with
                          | Some r => if contains r ptr len then Some r else None
                          | None => None
                          end
             else None) with
      | Some r =>
          match add_sge {| e_addr := ptr; e_len := len; e_key := rg_key r |} sges with
          | None => PFault
          | Some sges => put_buffers c mem at_ skip bufs' f ct sges
          end
      | None =>
          pbind (set f (the_frame c) ct (load mem ptr len)) (fun f =>
          match add_sge {| e_addr := at_ + ct; e_len := len; e_key := ic_key c |} sges with
          | None => PFault
          | Some sges => put_buffers c mem at_ skip bufs' f (ct + len) sges
          end)
      end
  end.
(** :316-390.  [pay] is the offset of the payload. *)
Definition put_packet (c : icfg) (mem : Z -> Z) (at_ : Z) (pay : Z) (f : list Z) (p : ipkt) : pres (list Z * list sge) :=
  let fr := the_frame c in
  pbind (set f fr pay (ip_words p)) (fun f =>                                   (* get_packet *)
  pbind (payload_ipv4 eth_min fr) (fun ip =>
  pbind (header_length f ip) (fun h =>
  pbind (set_be f ip 2 2 (ip_size p + udp_min + h)) (fun f =>
  pbind (payload_udp f ip) (fun udp =>
  pbind (set_be f udp 4 2 (ip_size p + udp_min)) (fun f =>
  pbind (if (1 <? zlen (ic_eps c)) then
           match nth_error (ic_eps c) (ip_sub p) with
           | None => PFault
           | Some (addr, port) =>
               pbind (set f fr 0 (multicast_mac addr)) (fun f =>
               pbind (set f ip 16 addr) (fun f => set_be f udp 2 2 port))
           end
         else POk f) (fun f =>
  pbind (if ic_csum c then POk f else update_checksum f ip) (fun f =>
  let ct := pay + ip_len0 p in
  put_buffers c mem at_ (Nat.leb (S (length (ip_bufs p))) max_sge) (ip_bufs p) f ct
    [{| e_addr := at_; e_len := ct; e_key := ic_key c |}])))))))).

(** What the device reads for an entry: the sender's own buffer or user memory,
    according to the key *)
Definition sge_bytes (c : icfg) (mem : Z -> Z) (at_ : Z) (f : list Z) (e : sge) : list Z :=
  if e_key e =? ic_key c then slice f (e_addr e - at_) (e_len e) else load mem (e_addr e) (e_len e).
Definition wire (c : icfg) (mem : Z -> Z) (at_ : Z) (f : list Z) (l : list sge) : list Z := flat_map (sge_bytes c mem at_ f) l.
