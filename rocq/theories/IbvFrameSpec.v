(** What a frame made by the ibverbs sender has to be. *)
From Coq Require Import ZArith List Bool.
From Verif Require Import Base RawModel RawSpec IbvFrameModel.
Import ListNotations.
Open Scope Z_scope.

(** Ethernet, IPv4 (20 bytes, don't fragment, identification 0) and UDP (no checksum)
    headers for a datagram of [n] bytes from [sa]:[sp] to [da]:[dp] *)
Definition headers (dmac smac sa da : list Z) (ttl sp dp n : Z) (ck : list Z) : list Z :=
  (dmac ++ smac ++ [8; 0])
  ++ ([69; 0] ++ be_encode 2 (20 + 8 + n) ++ [0; 0; 64; 0] ++ [ttl; 17] ++ ck ++ sa ++ da)
  ++ (be_encode 2 sp ++ be_encode 2 dp ++ be_encode 2 (8 + n) ++ [0; 0]).

(** What the packet is *)
Definition packet_data (mem : Z -> Z) (p : ipkt) : list Z :=
  slice (ip_words p) 0 (ip_len0 p) ++ flat_map (fun b => load mem (fst b) (snd b)) (ip_bufs p).

(** The configuration: what udp_ibv_config, stream_config and the operating system
    guarantee, except for the size of packets. *)
Definition ep_ok (e : list Z * Z) : Prop := length (fst e) = 4%nat /\ bytes_ok (fst e) /\ 0 <= snd e < 65536.
Record cfg_ok (c : icfg) : Prop := {
  co_mps : 0 < ic_mps c;
  co_eps : Forall ep_ok (ic_eps c);
  co_mac : length (ic_mac c) = 6%nat /\ bytes_ok (ic_mac c);
  co_addr : length (ic_addr c) = 4%nat /\ bytes_ok (ic_addr c);
  co_ttl : byte_ok (ic_ttl c);
  co_sizes : Forall (fun r => 0 < rg_size r) (ic_regions c);
  co_keys : NoDup (ic_key c :: map rg_key (ic_regions c))
}.
(** No two registered regions overlap *)
Definition apart (l : list region) : Prop :=
  NoDup (map rg_ptr l) /\ forall a b, In a l -> In b l -> rg_ptr a < rg_ptr b -> rg_ptr a + rg_size a <= rg_ptr b.
(** The packet: what the packet generator guarantees (C04) *)
Record fits (c : icfg) (p : ipkt) : Prop := {
  f_words : bytes_ok (ip_words p);
  f_len0 : 0 <= ip_len0 p <= zlen (ip_words p);
  f_room : zlen (ip_words p) <= ic_mps c;
  f_lens : Forall (fun b => 0 <= snd b) (ip_bufs p);
  f_size : ip_size p <= ic_mps c;
  f_sub : (ip_sub p < length (ic_eps c))%nat
}.

(** A slot after any number of packets, for any contents of user memory *)
Inductive reached (c : icfg) : Z -> list Z -> Prop :=
| reached_new pay f : new_slot c = POk (f, pay) -> reached c pay f
| reached_put mem at_ pay f p f' l : reached c pay f -> (forall a, byte_ok (mem a)) -> fits c p ->
    put_packet c mem at_ pay f p = POk (f', l) -> reached c pay f'.

(** Scatter/gather entries: inside memory registered under their key *)
Definition entry_ok (c : icfg) (at_ : Z) (e : sge) : Prop :=
  0 <= e_len e /\
  ((e_key e = ic_key c /\ at_ <= e_addr e /\ e_addr e + e_len e <= at_ + raw_size c)
   \/ exists r, In r (ic_regions c) /\ e_key e = rg_key r /\ rg_ptr r <= e_addr e /\ e_addr e + e_len e <= rg_ptr r + rg_size r).
(** Inside a registered region *)
Definition registered (c : icfg) (b : Z * Z) : bool :=
  existsb (fun r => (rg_ptr r <=? fst b) && (fst b + snd b <=? rg_ptr r + rg_size r)) (ic_regions c).
Fixpoint total {A} (w : A -> Z) (l : list A) : Z := match l with [] => 0 | x :: l' => w x + total w l' end.
(** Bytes the device reads from the user's memory *)
Definition direct (c : icfg) (l : list sge) : Z := total (fun e => if e_key e =? ic_key c then 0 else e_len e) l.
