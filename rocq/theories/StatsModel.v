(** Model of stream statistics: /repo/src/recv_stream.cpp:38-117, 119-218,
    361-375 and /repo/include/spead2/recv_stream.h:58-107, 173-330. *)
From Coq Require Import ZArith Bool String List.
From Verif Require Import Base.
Import ListNotations.
Open Scope Z_scope.

(** include/spead2/recv_stream.h:66-74 *)
Inductive stat_mode := Counter | Maximum.
Record stat_config := { sg_name : string; sg_mode : stat_mode }.

(** src/recv_stream.cpp:43-58 combine (std::uint64_t) *)
Definition combine (c : stat_config) (a b : Z) : Z :=
  match sg_mode c with
  | Counter => (a + b) mod 2 ^ 64
  | Maximum => Z.max a b
  end.

(** src/recv_stream.cpp:60-63 operator== *)
Definition mode_eqb (a b : stat_mode) : bool :=
  match a, b with Counter, Counter | Maximum, Maximum => true | _, _ => false end.
Definition stat_config_eqb (a b : stat_config) : bool :=
  String.eqb (sg_name a) (sg_name b) && mode_eqb (sg_mode a) (sg_mode b).
Fixpoint configs_eqb (a b : list stat_config) : bool :=
  match a, b with
  | [], [] => true
  | x :: a', y :: b' => stat_config_eqb x y && configs_eqb a' b'
  | _, _ => false
  end.

(** src/recv_stream.cpp:74-82 get_stat_index_nothrow *)
Fixpoint get_stat_index_nothrow (stats : list stat_config) (name : string) : nat :=
  match stats with
  | [] => O
  | c :: rest => if String.eqb (sg_name c) name then O else S (get_stat_index_nothrow rest name)
  end.
(** src/recv_stream.cpp:89-97 get_stat_index; [None] = std::out_of_range *)
Definition get_stat_index (stats : list stat_config) (name : string) : option nat :=
  let i := get_stat_index_nothrow stats name in
  if Nat.eqb i (length stats) then None else Some i.

(** src/recv_stream.cpp:100-117 make_default_stats *)
Definition default_stats : list stat_config :=
  [{| sg_name := "heaps"; sg_mode := Counter |};
   {| sg_name := "incomplete_heaps_evicted"; sg_mode := Counter |};
   {| sg_name := "incomplete_heaps_flushed"; sg_mode := Counter |};
   {| sg_name := "packets"; sg_mode := Counter |};
   {| sg_name := "batches"; sg_mode := Counter |};
   {| sg_name := "max_batch"; sg_mode := Maximum |};
   {| sg_name := "single_packet_heaps"; sg_mode := Counter |};
   {| sg_name := "search_dist"; sg_mode := Counter |};
   {| sg_name := "worker_blocked"; sg_mode := Counter |}].

(** src/recv_stream.cpp:361-371 add_stat: the new configuration and the index
    returned; [None] = std::invalid_argument *)
Definition add_stat (stats : list stat_config) (name : string) (mode : stat_mode) : option (list stat_config * nat) :=
  if Nat.eqb (get_stat_index_nothrow stats name) (length stats)
  then Some (stats ++ [{| sg_name := name; sg_mode := mode |}], length stats)
  else None.

(** include/spead2/recv_stream.h:181-185 stream_stats *)
Record stats := { sv_config : list stat_config; sv_values : list Z }.
(** src/recv_stream.cpp:130-135 *)
Definition stats_new (config : list stat_config) : stats :=
  {| sv_config := config; sv_values := repeat 0 (length config) |}.
(** src/recv_stream.cpp:178-186 at(name); [None] = std::out_of_range *)
Definition stats_at (s : stats) (name : string) : option Z :=
  match get_stat_index (sv_config s) name with
  | None => None
  | Some i => nth_error (sv_values s) i
  end.
(** src/recv_stream.cpp:213-216: the loop of operator+= *)
Fixpoint merge_values (config : list stat_config) (a b : list Z) : list Z :=
  match config, a, b with
  | c :: config', x :: a', y :: b' => combine c x y :: merge_values config' a' b'
  | _, _, _ => []
  end.
(** src/recv_stream.cpp:203-218 operator+ and operator+=; [None] =
    std::invalid_argument.  (The pointer comparison is a shortcut.) *)
Definition stats_add (a b : stats) : option stats :=
  if configs_eqb (sv_config a) (sv_config b)
  then Some {| sv_config := sv_config a; sv_values := merge_values (sv_config a) (sv_values a) (sv_values b) |}
  else None.
