(** Chunk stream groups with rings: chunk_stream_ring_group
    (/repo/include/spead2/recv_chunk_stream_group.h:354-465), which is the group of GroupModel.v
    (/repo/src/recv_chunk_stream_group.cpp) with the allocate and ready functions of
    chunk_ring_pair (/repo/include/spead2/recv_chunk_stream.h:829-886).

    In GroupModel.v the user's functions return at once.  Here they use the rings and may block,
    with the group's mutex locked ([hold]): allocate waits for a chunk in the free ring, ready for room
    in the data ring.  Meanwhile the other members can only do what needs no group mutex.

    Simplified: a call of a ring has its effect in one step, if it does not have to wait (C23-C25
    are about how the rings achieve this).  Each member has a thread of its own (C63 is
    about other thread pools), so a posted flush waits for the queue_mutex of its member only.
    The rings belong to one group.  One thread at a time calls stop (as
    recv_chunk_stream_group.cpp:138-142 demands).  The pushes of one call of flush_until come after the
    change to the window instead of in between, which nobody can see because the mutex is
    locked.  The user's own ready function (recv_chunk_stream.h:872-873) is left out. *)
From Coq Require Import ZArith List Bool.
From Verif Require Import Base ConcBase ChunkModel ChunkSpec GroupModel GroupProofs.
Import ListNotations.
Open Scope Z_scope.

(** The group's mutex: free; locked by member [i] in get_chunk, which has still to allocate
    for [ids] and has done so for [acc]; locked by member [i] in stream_head_updated, which has
    still to push [out]. *)
Inductive hold := HFree | HAlloc (i : nat) (ids : list Z) (acc : list (Z * option Z)) | HPush (i : nat) (out : list Z).
(** chunk_stream_ring_group::stop (recv_chunk_stream_group.h:447-456): no call; the data ring has
    been stopped; so has the free ring; about to lock queue_mutex of member [i], in stop1 (.cpp:265-271)
    itself ([false]) or in stream::stop ([true]); inside. *)
Inductive stopper := SNo | SRing | SPost | SMem (i : nat) (b : bool) | SIn (i : nat) (b : bool).
(** [x_prod]: the producers of the data ring; [x_mine]: the chunks of the user; [x_done]:
    stream_base::stopped of each member; [x_removed]: stop_received of the member has returned *)
Record rgst := {
  x_g : group; x_hold : hold;
  x_data : list Z; x_dstop : bool; x_prod : nat;
  x_free : list Z; x_fstop : bool;
  x_grave : list Z; x_mine : list Z;
  x_done : list bool; x_removed : list bool; x_stop : stopper }.

Inductive rgev :=
| EvG (e : gev)                         (* of the group's window, or an access to a chunk *)
| EvSent (c : Z) | EvBuried (c : Z)     (* ready: into the data ring, or into the graveyard *)
| EvFreed (c : Z)                       (* the graveyard is emptied *)
| EvGot (c : Z)                         (* the user takes a chunk from the data ring *)
| EvStopCall | EvStopRet | EvExt.       (* stop; the user stops a ring directly *)

(** A group with these members, each added as producer (:433-436) *)
Definition rg_new (lossy : bool) (gmax : nat) (maxs : list nat) (chunks : list Z) : rgst :=
  {| x_g := group_new lossy gmax maxs; x_hold := HFree; x_data := []; x_dstop := false; x_prod := length maxs;
     x_free := []; x_fstop := false; x_grave := []; x_mine := chunks;
     x_done := repeat false (length maxs); x_removed := repeat false (length maxs); x_stop := SNo |}.

Definition upd_g (s : rgst) (g : group) (h : hold) : rgst :=
  {| x_g := g; x_hold := h; x_data := x_data s; x_dstop := x_dstop s; x_prod := x_prod s; x_free := x_free s; x_fstop := x_fstop s;
     x_grave := x_grave s; x_mine := x_mine s; x_done := x_done s; x_removed := x_removed s; x_stop := x_stop s |}.
Definition upd_data (s : rgst) (h : hold) (data mine grave : list Z) : rgst :=
  {| x_g := x_g s; x_hold := h; x_data := data; x_dstop := x_dstop s; x_prod := x_prod s; x_free := x_free s; x_fstop := x_fstop s;
     x_grave := grave; x_mine := mine; x_done := x_done s; x_removed := x_removed s; x_stop := x_stop s |}.
Definition upd_free (s : rgst) (h : hold) (free mine : list Z) : rgst :=
  {| x_g := x_g s; x_hold := h; x_data := x_data s; x_dstop := x_dstop s; x_prod := x_prod s; x_free := free; x_fstop := x_fstop s;
     x_grave := x_grave s; x_mine := mine; x_done := x_done s; x_removed := x_removed s; x_stop := x_stop s |}.
Definition upd_stop (s : rgst) (d f : bool) (p : stopper) : rgst :=
  {| x_g := x_g s; x_hold := x_hold s; x_data := x_data s; x_dstop := d; x_prod := x_prod s; x_free := x_free s; x_fstop := f;
     x_grave := x_grave s; x_mine := x_mine s; x_done := x_done s; x_removed := x_removed s; x_stop := p |}.
Definition upd_done (s : rgst) (g : group) (i : nat) (p : stopper) : rgst :=
  {| x_g := g; x_hold := x_hold s; x_data := x_data s; x_dstop := x_dstop s; x_prod := x_prod s; x_free := x_free s; x_fstop := x_fstop s;
     x_grave := x_grave s; x_mine := x_mine s; x_done := upd (x_done s) i true; x_removed := x_removed s; x_stop := p |}.
(** remove_producer stops the ring if it was the last (/repo/include/spead2/common_ringbuffer.h:318-337). *)
Definition upd_removed (s : rgst) (i : nat) : rgst :=
  {| x_g := x_g s; x_hold := x_hold s; x_data := x_data s; x_dstop := x_dstop s || Nat.eqb (x_prod s) 1; x_prod := x_prod s - 1; x_free := x_free s; x_fstop := x_fstop s;
     x_grave := x_grave s; x_mine := x_mine s; x_done := x_done s; x_removed := upd (x_removed s) i true; x_stop := x_stop s |}.
Definition upd_fin (s : rgst) : rgst :=
  {| x_g := x_g s; x_hold := x_hold s; x_data := x_data s; x_dstop := x_dstop s; x_prod := x_prod s; x_free := x_free s; x_fstop := x_fstop s;
     x_grave := []; x_mine := x_mine s; x_done := x_done s; x_removed := x_removed s; x_stop := SNo |}.

Definition is_done (s : rgst) (i : nat) : bool := nth i (x_done s) false.
Definition is_removed (s : rgst) (i : nat) : bool := nth i (x_removed s) false.
(** Member [i] is in the middle of a call that has the group's mutex. *)
Definition holding (s : rgst) (i : nat) : bool := match x_hold s with HFree => false | HAlloc j _ _ | HPush j _ => Nat.eqb j i end.
(** No call of member [i] goes on inside the group. *)
Definition quiet_m (s : rgst) (i : nat) : bool :=
  match nth_error (g_members (x_g s)) i with
  | Some m => match mb_pc m with PIdle => negb (holding s i) | _ => false end
  | None => false
  end.
(** The queue_mutex of member [i] is free: nor is stop or stop_received between two steps. *)
Definition unlocked (s : rgst) (i : nat) : bool :=
  quiet_m s i && negb (is_done s i && negb (is_removed s i)) && negb (match x_stop s with SIn j _ => Nat.eqb j i | _ => false end).

(** The ids for which a step of member [i] calls allocate *)
Definition alloc_ids_of (e : list gev) : list Z := flat_map (fun x => match x with GChunk (EAlloc id _) => [id] | _ => [] end) e.
Definition needs (g : group) (i : nat) : list Z :=
  match g_step g (LStep i (fun _ => None)) with Ok _ e => alloc_ids_of e | _ => [] end.
Definition lookup (acc : list (Z * option Z)) (id : Z) : option Z := match find (fun p => fst p =? id) acc with Some p => snd p | None => None end.

Inductive rres := RBlocked | RFault | ROk (s : rgst) (ev : list rgev).
(** A step of the group; the chunks that become ready have to be pushed. *)
Definition g_do (s : rgst) (i : nat) (l : glabel) (k : group -> list gev -> rgst) : rres :=
  match g_step (x_g s) l with Blocked => RBlocked | Fault => RFault | Ok g e => ROk (k g e) (map EvG e) end.
Definition after (i : nat) (e : list gev) : hold := match readies (chunk_events e) with [] => HFree | out => HPush i out end.
(** Member [i] goes on. *)
Definition go (s : rgst) (i : nat) : rres :=
  match nth_error (g_members (x_g s)) i with
  | None => RBlocked
  | Some m =>
      match mb_pc m with
      | PIdle => RBlocked
      | PLoop _ => if holding s i then RBlocked else g_do s i (LStep i (fun _ => None)) (fun g _ => upd_g s g (x_hold s))
      | PReport _ _ =>                                                      (* stream_head_updated *)
          match x_hold s with HFree => g_do s i (LStep i (fun _ => None)) (fun g e => upd_g s g (after i e)) | _ => RBlocked end
      | PAlloc _ | PWait _ _ _ =>                                           (* get_chunk *)
          match x_hold s with
          | HFree => match needs (x_g s) i with
                     | [] => g_do s i (LStep i (fun _ => None)) (fun g _ => upd_g s g HFree)
                     | ids => ROk (upd_g s (x_g s) (HAlloc i ids [])) []
                     end
          | HAlloc j [] acc => if Nat.eqb j i then g_do s i (LStep i (lookup acc)) (fun g _ => upd_g s g HFree) else RBlocked
          | _ => RBlocked
          end
      end
  end.

Inductive rlabel :=
| RGet (i : nat) (id : Z) | RTouch (i : nat) (id : Z)     (* a packet of member i is handled *)
| RGo (i : nat)
| RFlush (i j : nat)                                      (* a posted flush *)
| RNet (i : nat)                                          (* the stream ends: stop_received, .cpp:274-279 *)
| RRemove (i : nat)                                       (* stream_stop_received, .h:439-445 *)
| RPop | RPush                                            (* free_ring.pop, data_ring.push *)
| RSpur (i : nat)
| RStop | RStopGo
| UAdd (v : Z) | UTake | UExt (data : bool).              (* the user: add_free_chunk, data_ring.pop, stop of a ring *)

(** stop, :447-456, with chunk_stream_group::stop, .cpp:133-156 *)
Definition stop_go (s : rgst) : rres :=
  match x_stop s with
  | SNo => RBlocked
  | SRing => ROk (upd_stop s (x_dstop s) true SPost) []                                            (* :453 *)
  | SPost =>                                                                                        (* .cpp:143-153 *)
      if g_lossy (x_g s) then ROk (upd_stop s (x_dstop s) (x_fstop s) (SMem 0 false)) []
      else g_do s 0 LPostStop (fun g _ => upd_stop (upd_g s g (x_hold s)) (x_dstop s) (x_fstop s) (SMem 0 false))
  | SMem i b =>
      if Nat.ltb i (length (g_members (x_g s))) then
        if unlocked s i then
          if b then                                                                                 (* stream::stop *)
            if is_done s i then ROk (upd_stop s (x_dstop s) (x_fstop s) (SMem (S i) false)) []
            else g_do s i (LStop i) (fun g _ => upd_done s g i (SIn i true))
          else g_do s i (LStop i) (fun g _ => upd_stop (upd_g s g (x_hold s)) (x_dstop s) (x_fstop s) (SIn i false))
        else RBlocked
      else ROk (upd_fin s) (map EvFreed (x_grave s) ++ [EvStopRet])                                 (* :455 *)
  | SIn i b =>
      if quiet_m s i then
        if b then if is_removed s i then ROk (upd_stop s (x_dstop s) (x_fstop s) (SMem (S i) false)) [] else RBlocked
        else ROk (upd_stop s (x_dstop s) (x_fstop s) (SMem i true)) []
      else RBlocked
  end.

Definition mem_z (v : Z) (l : list Z) : bool := existsb (Z.eqb v) l.
Fixpoint remove1 (v : Z) (l : list Z) : list Z := match l with [] => [] | x :: l => if v =? x then l else x :: remove1 v l end.

Definition rstep (capd capf : nat) (s : rgst) (l : rlabel) : rres :=
  match l with
  | RGet i id => if unlocked s i && negb (is_done s i) then g_do s i (LGet i id) (fun g _ => upd_g s g (x_hold s)) else RBlocked
  | RTouch i id => if unlocked s i then g_do s i (LTouch i id) (fun g _ => upd_g s g (x_hold s)) else RBlocked
  | RGo i => go s i
  | RFlush i j => if unlocked s i then g_do s i (LFlush i j) (fun g _ => upd_g s g (x_hold s)) else RBlocked
  | RNet i => if unlocked s i && negb (is_done s i) then g_do s i (LStop i) (fun g _ => upd_done s g i (x_stop s)) else RBlocked
  | RRemove i => if quiet_m s i && is_done s i && negb (is_removed s i) then ROk (upd_removed s i) [] else RBlocked
  | RPop =>                                                                 (* recv_chunk_stream.h:848-859 *)
      match x_hold s with
      | HAlloc i (id :: ids) acc =>
          match x_free s with
          | v :: f => ROk (upd_free s (HAlloc i ids (acc ++ [(id, Some v)])) f (x_mine s)) []
          | [] => if x_fstop s then ROk (upd_free s (HAlloc i ids (acc ++ [(id, None)])) [] (x_mine s)) [] else RBlocked
          end
      | _ => RBlocked
      end
  | RPush =>                                                                (* recv_chunk_stream.h:875-884 *)
      match x_hold s with
      | HPush i (c :: out) =>
          let h := match out with [] => HFree | _ => HPush i out end in
          if x_dstop s then ROk (upd_data s h (x_data s) (x_mine s) (c :: x_grave s)) [EvBuried c]
          else if Nat.ltb (length (x_data s)) capd then ROk (upd_data s h (x_data s ++ [c]) (x_mine s) (x_grave s)) [EvSent c]
          else RBlocked
      | _ => RBlocked
      end
  | RSpur i => g_do s i (LSpurious i) (fun g _ => upd_g s g (x_hold s))
  | RStop => match x_stop s with SNo => ROk (upd_stop s true (x_fstop s) SRing) [EvStopCall] | _ => RBlocked end   (* :452 *)
  | RStopGo => stop_go s
  | UAdd v =>                                                               (* recv_chunk_stream.h:829-842 *)
      if mem_z v (x_mine s) then
        if negb (x_fstop s) && Nat.ltb (length (x_free s)) capf then ROk (upd_free s (x_hold s) (x_free s ++ [v]) (remove1 v (x_mine s))) []
        else ROk s []
      else RBlocked
  | UTake => match x_data s with c :: d => ROk (upd_data s (x_hold s) d (c :: x_mine s) (x_grave s)) [EvGot c] | [] => RBlocked end
  | UExt data => ROk (upd_stop s (x_dstop s || data) (x_fstop s || negb data) (x_stop s)) [EvExt]
  end.

(** Every execution *)
Inductive rexec (capd capf : nat) (s0 : rgst) : list rgev -> rgst -> Prop :=
| rx_new : rexec capd capf s0 [] s0
| rx_step tr s l s' ev : rexec capd capf s0 tr s -> rstep capd capf s l = ROk s' ev -> rexec capd capf s0 (tr ++ ev) s'.
Fixpoint rrun (capd capf : nat) (s : rgst) (ls : list rlabel) : option (rgst * list rgev) :=
  match ls with
  | [] => Some (s, [])
  | l :: ls => match rstep capd capf s l with
               | ROk s' ev => match rrun capd capf s' ls with Some (s2, ev2) => Some (s2, ev ++ ev2) | None => None end
               | _ => None
               end
  end.
