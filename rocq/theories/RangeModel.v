(** Lists of processor cores: parse_range_list (src/spead2/__init__.py:80-96) and what the
    tools and the thread pool do with them. *)
From Coq Require Import ZArith List Bool.
From Verif Require Import CmdModel.
Import ListNotations.
Open Scope Z_scope.

(** str.split(sep) for one character (:86): always at least one part. *)
Fixpoint split (sep : Z) (s : str) : list str :=
  match s with
  | [] => [[]]
  | c :: t => if c =? sep then [] :: split sep t
              else match split sep t with p :: ps => (c :: p) :: ps | [] => [[c]] end
  end.
(** str.split(sep, 1) (:89): None if there is no separator. *)
Fixpoint split1 (sep : Z) (s : str) : option (str * str) :=
  match s with
  | [] => None
  | c :: t => if c =? sep then Some ([], t)
              else match split1 sep t with Some (a, b) => Some (c :: a, b) | None => None end
  end.
(** range(start, stop) (:93). *)
Definition range (start stop : Z) : list Z := map (fun i => start + Z.of_nat i) (seq 0 (Z.to_nat (stop - start))).
(** One part (:89-95); None is ValueError.  [py_int] is Python's int (CmdModel). *)
Definition parse_part (p : str) : option (list Z) :=
  match split1 45 p with
  | Some (a, b) => match py_int a with
                   | Some start => match py_int b with Some stop => Some (range start (stop + 1)) | None => None end
                   | None => None
                   end
  | None => match py_int p with Some v => Some [v] | None => None end
  end.
Fixpoint parse_parts (ps : list str) : option (list Z) :=
  match ps with
  | [] => Some []
  | p :: t => match parse_part p with
              | Some l => match parse_parts t with Some r => Some (l ++ r) | None => None end
              | None => None
              end
  end.
(** parse_range_list (:80-96). *)
Definition parse_range_list (s : str) : option (list Z) := match s with [] => Some [] | _ => parse_parts (split 44 s) end.

(** SharedOptions.make_thread_pool (src/spead2/tools/cmdline.py:155-160): the core of the main
    thread and the list given to the thread pool. *)
Definition make_thread_pool (affinity : list Z) : option Z * list Z :=
  match affinity with
  | [] => (None, [])
  | a :: t => (Some a, t ++ [a])
  end.
(** The core of thread [i] of the pool (src/common_thread_pool.cpp:79-90). *)
Definition pool_core (affinity : list Z) (i : nat) : option Z :=
  match affinity with
  | [] => None
  | _ => nth_error affinity (Nat.modulo i (length affinity))
  end.
