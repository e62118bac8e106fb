(** The command line of the tools: endpoints, the options of a receiver and the readers made
    from them (src/spead2_cmdline.cpp and src/spead2/tools/cmdline.py).  Strings are lists of
    character codes.  Both optional parts (ibverbs, pcap) are compiled in. *)
From Coq Require Import ZArith List Bool.
Import ListNotations.
Open Scope Z_scope.

Definition str := list Z.
Definition colon : Z := 58.

(** std::string::rfind(char) (used in src/spead2_cmdline.cpp:60, 179, 194); None is npos. *)
Fixpoint rfind (c : Z) (s : str) : option nat :=
  match s with
  | [] => None
  | x :: t => match rfind c t with Some i => Some (S i) | None => if x =? c then Some O else None end
  end.

(** The body of the loop of parse_endpoints (src/spead2_cmdline.cpp:58-73): host and port
    handed to the resolver; None is the exception. *)
Definition parse_one (passive : bool) (dest : str) : option (str * str) :=
  match rfind colon dest with
  | None => if passive then Some ([], dest) else None
  | Some O => if passive then Some ([], skipn 1 dest) else None
  | Some i => Some (firstn i dest, skipn (i + 1) dest)
  end.

(** parse_endpoints (src/spead2_cmdline.cpp:51-79), without the resolver. *)
Fixpoint parse_endpoints (passive : bool) (l : list str) : option (list (str * str)) :=
  match l with
  | [] => Some []
  | s :: t => match parse_one passive s with
              | Some hp => match parse_endpoints passive t with Some r => Some (hp :: r) | None => None end
              | None => None
              end
  end.

Definition is_digit (c : Z) : bool := (48 <=? c) && (c <=? 57).
Definition value (ds : str) : Z := fold_left (fun a c => 10 * a + (c - 48)) ds 0.

(** boost::lexical_cast<std::uint16_t> (used in src/spead2_cmdline.cpp:201): an optional sign
    (also '-', which boost accepts for unsigned types), then digits; overflow is an error.
    Only whether it throws matters here. *)
Definition lexical_u16 (s : str) : bool :=
  let ds := match s with c :: t => if (c =? 43) || (c =? 45) then t else s | [] => s end in
  match ds with [] => false | _ => forallb is_digit ds && (value ds <? 65536) end.

Record options := { tcp : bool; ibv : bool; bind : str; max_packet_size : option Z; buffer_size : option Z }.

(** receiver_options::notify (src/spead2_cmdline.cpp:110-142); None is po::error.  The
    defaults are those of include/spead2/recv_tcp.h:118-120, recv_udp.h:95,
    recv_udp_base.h:54 and recv_udp_ibv.h:63-65. *)
Definition notify (o : options) : option options :=
  if ibv o && (match bind o with [] => true | _ => false end) then None
  else if tcp o && ibv o then None
  else Some {| tcp := tcp o; ibv := ibv o; bind := bind o;
               max_packet_size := match max_packet_size o with
                                  | Some m => Some m
                                  | None => Some (if tcp o then 65536 else if ibv o then 9200 else 9200)
                                  end;
               buffer_size := match buffer_size o with
                              | Some b => Some b
                              | None => Some (if tcp o then 208 * 1024 else if ibv o then 16 * 1024 * 1024 else 8 * 1024 * 1024)
                              end |}.

(** What is emplaced on the stream. *)
Inductive reader :=
| RPcap (file : str)
| RTcp (ep : str * str) (max buf : Z)
| RUdp (ep : str * str) (max buf : Z) (iface : option str)
| RIbv (eps : list (str * str)) (max buf : Z) (iface : str).

Inductive outcome := Done | Throws | UB.

(** The loop of receiver_options::add_readers (src/spead2_cmdline.cpp:175-245).  [resolve]
    stands for the resolver: None if it throws, else whether the address is IPv4.  An
    endpoint is known by the host and port it was resolved from.  Dereferencing an empty
    optional is UB.  An exception leaves the readers added so far. *)
Fixpoint add_loop (resolve : str * str -> option bool) (o : options) (allow_pcap : bool) (l : list str) (ibv_eps : list (str * str))
  : list reader * list (str * str) * outcome :=
  match l with
  | [] => ([], ibv_eps, Done)
  | e :: t =>
    let port := match rfind colon e return str with Some i => skipn (i + 1) e | None => e end in
    let is_pcap := allow_pcap && negb (lexical_u16 port) in
    let go r eps := let '(rs, eps', out) := add_loop resolve o allow_pcap t eps in (r ++ rs, eps', out) in
    if is_pcap then go [RPcap e] ibv_eps
    else match parse_one true e with
         | None => ([], ibv_eps, Throws)
         | Some ep =>
           match resolve ep with
           | None => ([], ibv_eps, Throws)
           | Some v4 =>
             if negb (tcp o) && ibv o then go [] (ibv_eps ++ [ep])
             else match max_packet_size o, buffer_size o with
                  | Some m, Some b =>
                    if tcp o then go [RTcp ep m b] ibv_eps
                    else if v4 && negb (match bind o with [] => true | _ => false end) then go [RUdp ep m b (Some (bind o))] ibv_eps
                    else go [RUdp ep m b None] ibv_eps
                  | _, _ => ([], ibv_eps, UB)
                  end
           end
         end
  end.

(** receiver_options::add_readers (src/spead2_cmdline.cpp:166-260).  boost::asio::ip::
    make_address throws for an empty string; other strings are taken to be addresses. *)
Definition add_readers (resolve : str * str -> option bool) (o : options) (allow_pcap : bool) (l : list str) : list reader * outcome :=
  let '(rs, eps, out) := add_loop resolve o allow_pcap l [] in
  match out, eps with
  | Done, _ :: _ =>
    match bind o with
    | [] => (rs, Throws)
    | _ => match max_packet_size o, buffer_size o with
           | Some m, Some b => (rs ++ [RIbv eps m b (bind o)], Done)
           | _, _ => (rs, UB)
           end
    end
  | _, _ => (rs, out)
  end.

(** ** Python *)

(** str.isspace for ASCII. *)
Definition py_space (c : Z) : bool := ((9 <=? c) && (c <=? 13)) || ((28 <=? c) && (c <=? 32)).
Fixpoint lstrip (s : str) : str := match s with c :: t => if py_space c then lstrip t else s | [] => [] end.
Definition strip (s : str) : str := rev (lstrip (rev (lstrip s))).
(** After a digit: digits, with single underscores between them. *)
Fixpoint py_tail (a : Z) (under : bool) (s : str) : option Z :=
  match s with
  | [] => if under then None else Some a
  | c :: t => if is_digit c then py_tail (10 * a + (c - 48)) false t
              else if (c =? 95) && negb under then py_tail a true t
              else None
  end.
Definition py_num (s : str) : option Z := match s with c :: t => if is_digit c then py_tail (c - 48) false t else None | [] => None end.
(** int(str) of Python (used in src/spead2/tools/cmdline.py:29, 32); None is ValueError.
    ASCII only; the limit of 4300 digits is left out. *)
Definition py_int (s : str) : option Z :=
  match strip s with
  | c :: t => if c =? 43 then py_num t else if c =? 45 then option_map Z.opp (py_num t) else py_num (c :: t)
  | [] => None
  end.
(** parse_endpoint (src/spead2/tools/cmdline.py:26-33). *)
Definition py_parse (e : str) : option (str * Z) :=
  match rfind colon e with
  | Some i => option_map (fun p => (firstn i e, p)) (py_int (skipn (i + 1) e))
  | None => option_map (fun p => ([], p)) (py_int e)
  end.

(** ** The benchmark in memory *)

Inductive heap := HData (size : Z) | HEnd.

(** num_heaps in main_mem (src/spead2_bench.cpp:664); None is the division by zero. *)
Definition mem_heaps (heap_size : Z) : option Z := if heap_size =? 0 then None else Some (1024 * 1024 * 1024 / heap_size + 1).
(** The loop of build_streambuf (src/spead2_bench.cpp:644-657), from heap [i] with [fuel]
    heaps to go; [err] says for which heaps the completion handler gets an error.  The handler is
    "if (!ec) last_error = ec" (:646-652), so [last_error] is set to the value of [ec] only
    when that is no error.  Result: the heaps sent, and whether the function throws. *)
Fixpoint build_loop (err : Z -> bool) (heap_size num_heaps i : Z) (fuel : nat) : list heap * bool :=
  match fuel with
  | O => ([], false)
  | S f =>
    let h := if i <? num_heaps - 1 then HData heap_size else HEnd in
    let ec := err i in
    let last_error := if negb ec then ec else false in
    if last_error then ([h], true)
    else let '(hs, t) := build_loop err heap_size num_heaps (i + 1) f in (h :: hs, t)
  end.
Definition build_streambuf (err : Z -> bool) (heap_size num_heaps : Z) : list heap * bool := build_loop err heap_size num_heaps 0 (Z.to_nat num_heaps).
