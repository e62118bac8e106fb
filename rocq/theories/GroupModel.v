(** Model of chunk_stream_group and its members:
    /repo/src/recv_chunk_stream_group.cpp:71-81, :133-279 on top of the windows of
    ChunkModel.

    Each member stream has its own chunk_window, which is only accessed with the
    member's queue_mutex held; the group has one window and the other shared
    fields, accessed under the group's mutex.  A step is one critical section of
    the group's mutex, or the work of a member between two of them.  A member that
    is not [PIdle] holds its queue_mutex, so nothing else happens to it until the
    call is over; in particular its posted flushes have to wait.  Members are
    interleaved arbitrarily; posted flushes of a member run in any order; waits on
    the condition variable may end spuriously.

    Simplified: the user's allocate function returns at once; chunk data is only
    touched through [LTouch], which stands for all the accesses C31 is about.
    Members are all present from the start (emplace_back throws once the group has
    received data, recv_chunk_stream_group.h:400-403). *)
From Coq Require Import ZArith List Bool.
From Verif Require Import Base ConcBase ChunkModel.
Import ListNotations.
Open Scope Z_scope.

(** What a member does after reporting its head. *)
Inductive kont := KIdle | KLoop (id : Z) | KAlloc (id : Z).
(** [PLoop id]: at the head of the loop of get_chunk(id)
    (recv_chunk_stream.h:331); [PReport h k]: about to call
    stream_head_updated(h); [PAlloc id]: about to call the group's get_chunk for
    the member's tail; [PWait id target awake]: on the condition variable. *)
Inductive gpc :=
| PIdle | PLoop (id : Z) | PReport (h : Z) (k : kont) | PAlloc (id : Z) | PWait (id target : Z) (awake : bool).
(** [mb_pending]: targets of posted flushes that have not run yet. *)
Record member := { mb_win : window; mb_pc : gpc; mb_pending : list Z }.
Record group := { g_win : window; g_heads : list Z; g_last : Z; g_lossy : bool; g_members : list member }.

(** chunk_stream_group and the given members' max_chunks *)
Definition member_new (max : nat) : member := {| mb_win := window_new max; mb_pc := PIdle; mb_pending := [] |}.
Definition group_new (lossy : bool) (gmax : nat) (maxs : list nat) : group :=
  {| g_win := window_new gmax; g_heads := repeat 0 (length maxs); g_last := 0; g_lossy := lossy; g_members := map member_new maxs |}.

Inductive gev :=
| GChunk (e : wev)                 (* a callback of the group's window *)
| GTouch (i : nat) (id c : Z).     (* member i accesses the memory of chunk id = c *)

Inductive glabel :=
| LGet (i : nat) (id : Z)          (* a heap is placed in chunk id (chunk_stream_state::allocate) *)
| LStep (i : nat) (alloc : Z -> option Z)   (* member i goes on; alloc: what the user's allocator returns *)
| LFlush (i j : nat)               (* the j-th posted flush of member i runs *)
| LStop (i : nat)                  (* member i: flush_chunks (stop1, stop_received) *)
| LPostStop                        (* group stop in lossless mode: :143-153 *)
| LSpurious (i : nat)              (* a spurious wakeup *)
| LTouch (i : nat) (id : Z).       (* member i writes to chunk id *)

(** [Blocked]: not possible now; [Fault]: failed assert or bad access. *)
Inductive gres := Blocked | Fault | Ok (g : group) (e : list gev).

Definition set_member (g : group) (i : nat) (m : member) : group :=
  {| g_win := g_win g; g_heads := g_heads g; g_last := g_last g; g_lossy := g_lossy g; g_members := upd (g_members g) i m |}.
Definition set_pc (m : member) (p : gpc) : member := {| mb_win := mb_win m; mb_pc := p; mb_pending := mb_pending m |}.
Definition set_win (m : member) (w : window) (p : gpc) : member := {| mb_win := w; mb_pc := p; mb_pending := mb_pending m |}.
Definition post (t : Z) (m : member) : member := {| mb_win := mb_win m; mb_pc := mb_pc m; mb_pending := mb_pending m ++ [t] |}.
Definition wake (m : member) : member := match mb_pc m with PWait id t _ => set_pc m (PWait id t true) | _ => m end.
Definition of_kont (k : kont) : gpc := match k with KIdle => PIdle | KLoop id => PLoop id | KAlloc id => PAlloc id end.

(** The heads reported by a function of a member's window (the members' ready
    callback does nothing: recv_chunk_stream_group.h:105, .cpp:257). *)
Definition reported (e : list wev) : list Z := flat_map (fun x => match x with EHead h => [h] | _ => [] end) e.
(** After it, at most one report is due. *)
Definition report_then (e : list wev) (k : kont) : option gpc :=
  match reported e with [] => Some (of_kont k) | [h] => Some (PReport h k) | _ => None end.

Definition min_list (l : list Z) : Z := match l with [] => 0 | x :: l' => fold_left Z.min l' x end.
Definition is_ready (e : wev) : bool := match e with EReady _ => true | _ => false end.

(** :212-230 stream_head_updated *)
Definition stream_head_updated (g : group) (i : nat) (h : Z) : option (group * list gev) :=
  match nth_error (g_heads g) i with
  | None => None
  | Some old =>
      if old <? h then
        let heads' := upd (g_heads g) i h in
        if w_head (g_win g) =? old then
          match flush_until (g_win g) (min_list heads') with
          | None => None
          | Some (w', e) =>
              Some ({| g_win := w'; g_heads := heads'; g_last := g_last g; g_lossy := g_lossy g;
                       g_members := match reported e with [] => g_members g | _ => map wake (g_members g) end |}, map GChunk e)
          end
        else Some ({| g_win := g_win g; g_heads := heads'; g_last := g_last g; g_lossy := g_lossy g; g_members := g_members g |}, [])
      else None
  end.

(** :191-203, then the member stores the chunk (recv_chunk_stream.h:335-344). *)
Definition take_chunk (g : group) (i : nat) (m : member) (id : Z) (alloc : Z -> option Z) : gres :=
  match get_chunk (g_win g) (w_tail (mb_win m)) alloc with
  | None => Fault
  | Some (w', e, o) =>
      if existsb is_ready e then Fault     (* assert(false) on :199 *)
      else match gc_store (mb_win m) o with
           | None => Fault
           | Some mw =>
               Ok {| g_win := w'; g_heads := g_heads g; g_last := g_last g; g_lossy := g_lossy g;
                     g_members := upd (g_members g) i (set_win m mw (PLoop id)) |} (map GChunk e)
           end
  end.

(** :158-189, the part of get_chunk before the first wait. *)
Definition group_get (g : group) (i : nat) (m : member) (id : Z) (alloc : Z -> option Z) : gres :=
  let cid := w_tail (mb_win m) in
  let gmax := Z.of_nat (w_max (g_win g)) in
  if w_head (g_win g) <=? cid then
    if gmax <=? u64 (cid - w_head (g_win g)) then
      let target := u64 (cid - (gmax - 1)) in
      let posting := g_lossy g && (g_last g <? target) in
      let ms := if posting then map (post target) (g_members g) else g_members g in
      let m' := if posting then post target m else m in
      let g' := {| g_win := g_win g; g_heads := g_heads g; g_last := if posting then target else g_last g; g_lossy := g_lossy g; g_members := ms |} in
      if w_head (g_win g) <? target then Ok (set_member g' i (set_pc m' (PWait id target false))) []
      else take_chunk g' i m' id alloc
    else take_chunk g i m id alloc
  else Fault.

(** One step of a member that is inside a call. *)
Definition member_step (g : group) (i : nat) (m : member) (alloc : Z -> option Z) : gres :=
  match mb_pc m with
  | PIdle => Blocked
  | PLoop id =>                                                       (* recv_chunk_stream.h:331-335, :347-350 *)
      if w_tail (mb_win m) <=? id then
        match gc_room (mb_win m) with
        | None => Fault
        | Some (w', e) => match report_then e (KAlloc id) with None => Fault | Some p => Ok (set_member g i (set_win m w' p)) [] end
        end
      else match nth_error (w_slots (mb_win m)) (chunk_pos (mb_win m) id) with
           | None => Fault
           | Some _ => Ok (set_member g i (set_pc m PIdle)) []
           end
  | PReport h k =>
      match stream_head_updated g i h with
      | None => Fault
      | Some (g', e) => match nth_error (g_members g') i with
                        | None => Fault
                        | Some m' => Ok (set_member g' i (set_pc m' (of_kont k))) e
                        end
      end
  | PAlloc id => group_get g i m id alloc
  | PWait id target awake =>                                          (* :185-188 *)
      if awake then
        if w_head (g_win g) <? target then Ok (set_member g i (set_pc m (PWait id target false))) []
        else take_chunk g i m id alloc
      else Blocked
  end.

Definition remove_at {A} (j : nat) (l : list A) : list A := firstn j l ++ skipn (S j) l.
Definition g_step (g : group) (l : glabel) : gres :=
  match l with
  | LGet i id =>                                                      (* recv_chunk_stream.h:776-801, :316-330 *)
      match nth_error (g_members g) i with
      | None => Blocked
      | Some m =>
          match mb_pc m with
          | PIdle =>
              if (0 <=? id) && (id <? 2 ^ 63) then
                if w_head (mb_win m) <=? id then
                  match gc_jump (mb_win m) id with
                  | None => Fault
                  | Some (w', e) => match report_then e (KLoop id) with None => Fault | Some p => Ok (set_member g i (set_win m w' p)) [] end
                  end
                else Ok g []
              else Blocked
          | _ => Blocked
          end
      end
  | LStep i alloc => match nth_error (g_members g) i with None => Blocked | Some m => member_step g i m alloc end
  | LFlush i j =>                                                     (* :251-263 *)
      match nth_error (g_members g) i with
      | None => Blocked
      | Some m =>
          match mb_pc m, nth_error (mb_pending m) j with
          | PIdle, Some t =>
              match flush_until (mb_win m) t with
              | None => Fault
              | Some (w', e) =>
                  match report_then e KIdle with
                  | None => Fault
                  | Some p => Ok (set_member g i {| mb_win := w'; mb_pc := p; mb_pending := remove_at j (mb_pending m) |}) []
                  end
              end
          | _, _ => Blocked
          end
      end
  | LStop i =>                                                        (* :265-279 *)
      match nth_error (g_members g) i with
      | None => Blocked
      | Some m =>
          match mb_pc m with
          | PIdle =>
              match flush_all (mb_win m) u64_max with
              | None => Fault
              | Some (w', e) => match report_then e KIdle with None => Fault | Some p => Ok (set_member g i (set_win m w' p)) [] end
              end
          | _ => Blocked
          end
      end
  | LPostStop =>
      Ok {| g_win := g_win g; g_heads := g_heads g; g_last := g_last g; g_lossy := g_lossy g; g_members := map (post u64_max) (g_members g) |} []
  | LSpurious i => match nth_error (g_members g) i with None => Blocked | Some m => Ok (set_member g i (wake m)) [] end
  | LTouch i id =>                                                    (* C31: only a chunk in the member's window *)
      match nth_error (g_members g) i with
      | None => Blocked
      | Some m => match mb_pc m, get_const (mb_win m) id with
                  | PIdle, Some (Some c) => if (0 <=? id) && (id <? 2 ^ 63) then Ok g [GTouch i id c] else Blocked
                  | _, _ => Blocked
                  end
      end
  end.

(** Executions, with the log so far. *)
Inductive g_reach (g0 : group) : group -> list gev -> Prop :=
| gr_init : g_reach g0 g0 []
| gr_step g tr l g' e : g_reach g0 g tr -> g_step g l = Ok g' e -> g_reach g0 g' (tr ++ e).

Fixpoint g_run (g : group) (l : list glabel) : option (group * list gev) :=
  match l with
  | [] => Some (g, [])
  | x :: l' => match g_step g x with
               | Ok g1 e1 => match g_run g1 l' with None => None | Some (g2, e2) => Some (g2, e1 ++ e2) end
               | _ => None
               end
  end.
Lemma g_run_reach g0 : forall l g tr g' e, g_reach g0 g tr -> g_run g l = Some (g', e) -> g_reach g0 g' (tr ++ e).
Proof.
  induction l as [|x l IH]; intros g tr g' e H R; cbn [g_run] in R.
  - injection R as <- <-. now rewrite app_nil_r.
  - destruct (g_step g x) as [| |g1 e1] eqn:E; try discriminate. destruct (g_run g1 l) as [[g2 e2]|] eqn:E2; [|discriminate].
    injection R as <- <-. rewrite app_assoc. apply (IH g1); [|exact E2]. eapply gr_step; eauto.
Qed.
