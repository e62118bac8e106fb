(** What users of [spead2.recv.Chunk] and [ChunkRingbuffer] rely on, in terms of
    calls and their results. *)
From Coq Require Import List Arith ZArith Bool.
From Verif Require Import PyChunkModel.
Import ListNotations.

(** The buffers with which chunk [o] was handed over, if it was and has not come
    back: judged from the log alone, newest event last. *)
Definition upd_away (o : nat) (a : option key) (e : event) : option key :=
  match e with
  | VPut o' k => if o' =? o then Some k else a
  | VBack o' _ | VOut o' _ | VLost o' _ => if o' =? o then None else a
  end.
Definition away (log : list event) (o : nat) : option key := fold_left (upd_away o) log None.

(** A log is in order if a chunk is only handed over while it is at home, and
    comes back with exactly the buffers with which it went. *)
Inductive in_order : list event -> Prop :=
| io_nil : in_order []
| io_put log o k : in_order log -> away log o = None -> in_order (log ++ [VPut o k])
| io_back log o k : in_order log -> away log o = Some k -> in_order (log ++ [VBack o k])
| io_out log o k : in_order log -> away log o = Some k -> in_order (log ++ [VOut o k])
| io_lost log o k : in_order log -> away log o = Some k -> in_order (log ++ [VLost o k]).

(** The application does not assign buffers to a chunk that it has handed over. *)
Fixpoint polite (ls : list label) (s : st) (log : list event) : Prop :=
  match ls with
  | [] => True
  | l :: ls' =>
      (match l with LSet o _ _ => away log o = None | _ => True end) /\
      match step l s with
      | Some (Done s' _ evs) => polite ls' s' (log ++ evs)
      | _ => True
      end
  end.

(** The buffers that the application assigns, in order. *)
Definition assigned (ls : list label) : list nat :=
  flat_map (fun l => match l with LSet _ _ (Some b) => [b] | _ => [] end) ls.

(** The chunk a Python program sees. *)
Definition chunk_of (s : st) (o : nat) : option chunkf := getf o s.
(** Every wrapper there is. *)
Definition wraps (s : st) : list wrapper :=
  flat_map r_items (rings s) ++ map snd (pend s) ++ held s ++ grave s.
(** Buffers of a chunk. *)
Definition bufs_of (f : chunkf) : list nat :=
  let l (b : option nat) := match b with Some i => [i] | None => [] end in
  l (c_present f) ++ l (c_data f) ++ l (c_extra f).

(** Chunk [o] handed over with buffers [k]: how often, and how often that ended. *)
Definition key_eq_dec (a b : key) : {a = b} + {a <> b}.
Proof. repeat decide equality. Defined.
Definition times (g : event -> option (nat * key)) (o : nat) (k : key) (log : list event) : nat :=
  length (filter (fun e => match g e with Some (o', k') => (o' =? o) && (if key_eq_dec k' k then true else false) | None => false end) log).
Definition handed (e : event) := match e with VPut o k => Some (o, k) | _ => None end.
Definition ended (e : event) := match e with VBack o k | VOut o k | VLost o k => Some (o, k) | _ => None end.
(** Wrappers that hold buffers [k] for chunk [o]. *)
Definition holding (o : nat) (k : key) (s : st) : nat :=
  length (filter (fun w => (w_obj w =? o) && (if key_eq_dec (keyof (w_f w)) k then true else false)) (wraps s)).
