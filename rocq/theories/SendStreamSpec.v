(** What an asynchronous sender may do, as a monitor over the log of accepted and
    rejected requests, packets handed to and written by the transport, and calls
    of completion handlers. *)
From Coq Require Import ZArith List Bool Lia.
From Verif Require Import Base SendStreamModel.
Import ListNotations.
Open Scope Z_scope.

(** *** Order of the packets of a group *)
Section Order.
Context {A : Type}.
(** Round [r] of a round robin: the [r]-th packet of every heap that has one. *)
Definition column (r : nat) (hs : list (list A)) : list A := flat_map (fun h => firstn 1 (skipn r h)) hs.
Definition max_len (hs : list (list A)) : nat := list_max (map (@length A) hs).
Definition round_robin (hs : list (list A)) : list A := flat_map (fun r => column r hs) (seq 0 (max_len hs)).
Definition group_order (mode : gmode) (hs : list (list A)) : list A :=
  match mode with Serial => concat hs | RoundRobin => round_robin hs end.
End Order.

(** The packets of a heap, with its substream. *)
Definition heap_packets (h : heap_ref) : list (pkt * Z) := map (fun p => (p, h_sub h)) (h_pkts h).

(** *** The monitor *)
(** An accepted request: its handler, the packets not yet handed to the
    transport, the number of packets handed over and not yet written, and the
    bytes and the first error so far. *)
Record mgroup := { mg_id : Z; mg_left : list (pkt * Z); mg_out : nat; mg_bytes : Z; mg_err : Z }.
Record smon := {
  sm_groups : list mgroup;          (* accepted and handler not called, oldest first *)
  sm_rejected : list (Z * Z);       (* rejected and handler not called *)
  sm_accepted : nat; sm_done : nat; (* numbers of accepted requests and of their handlers called *)
  sm_target : nat -> nat;           (* requests accepted when the thread last called flush *)
  sm_next : Z; sm_step : Z }.       (* next automatic cnt *)
Definition smon0 : smon := {| sm_groups := []; sm_rejected := []; sm_accepted := 0; sm_done := 0; sm_target := fun _ => O; sm_next := 1; sm_step := 1 |}.

Definition pkt_eqb (a b : pkt * Z) : bool := (p_id (fst a) =? p_id (fst b)) && (p_size (fst a) =? p_size (fst b)) && (snd a =? snd b).
(** The next packet must be the first one left in the oldest group that has any. *)
Fixpoint on_packet (gs : list mgroup) (p : pkt * Z) (last : bool) : option (list mgroup) :=
  match gs with
  | [] => None
  | g :: gs' =>
      match mg_left g with
      | [] => match on_packet gs' p last with None => None | Some r => Some (g :: r) end
      | x :: l => if pkt_eqb x p && Bool.eqb last match l with [] => true | _ => false end
                  then Some ({| mg_id := mg_id g; mg_left := l; mg_out := S (mg_out g); mg_bytes := mg_bytes g; mg_err := mg_err g |} :: gs') else None
      end
  end.
(** Packets are written in the order in which they were handed over. *)
Fixpoint on_written (gs : list mgroup) (size err : Z) (last : bool) : option (list mgroup) :=
  match gs with
  | [] => None
  | g :: gs' =>
      match mg_out g with
      | O => match mg_left g, on_written gs' size err last with [], Some r => Some (g :: r) | _, _ => None end
      | S k => if Bool.eqb last match k, mg_left g with O, [] => true | _, _ => false end
               then Some ({| mg_id := mg_id g; mg_left := mg_left g; mg_out := k; mg_bytes := (mg_bytes g + size) mod 2 ^ 64;
                             mg_err := if mg_err g =? 0 then err else mg_err g |} :: gs') else None
      end
  end.
Definition sent (g : mgroup) : bool := match mg_left g, mg_out g with [], O => true | _, _ => false end.

(** The cnts of the heaps of a request. *)
Fixpoint on_cnts (next step : Z) (hs : list (heap_ref * Z)) : option Z :=
  match hs with
  | [] => Some next
  | (h, c) :: hs' =>
      if h_cnt h <? 0 then if c =? next mod 2 ^ h_hab h then on_cnts ((next + step) mod 2 ^ 64) step hs' else None
      else if (c =? h_cnt h) && (c <? 2 ^ h_hab h) then on_cnts next step hs' else None
  end.

Fixpoint remove_first (x : Z * Z) (l : list (Z * Z)) : option (list (Z * Z)) :=
  match l with
  | [] => None
  | y :: l' => if (fst x =? fst y) && (snd x =? snd y) then Some l' else match remove_first x l' with None => None | Some r => Some (y :: r) end
  end.

Definition smon_step (nsub : Z) (m : smon) (e : sev) : option smon :=
  match e with
  | EAccept id mode hs =>
      match hs, on_cnts (sm_next m) (sm_step m) hs with
      | _ :: _, Some next =>
          if forallb (fun h => (0 <=? h_sub (fst h)) && (h_sub (fst h) <? nsub)) hs then
            Some {| sm_groups := sm_groups m ++ [{| mg_id := id; mg_left := group_order mode (map (fun h => heap_packets (fst h)) hs);
                                                    mg_out := 0; mg_bytes := 0; mg_err := 0 |}];
                    sm_rejected := sm_rejected m; sm_accepted := S (sm_accepted m); sm_done := sm_done m; sm_target := sm_target m;
                    sm_next := next; sm_step := sm_step m |}
          else None
      | _, _ => None
      end
  | EReject id err _ =>
      Some {| sm_groups := sm_groups m; sm_rejected := sm_rejected m ++ [(id, err)]; sm_accepted := sm_accepted m; sm_done := sm_done m;
              sm_target := sm_target m; sm_next := sm_next m; sm_step := sm_step m |}
  | EPacket p sub last =>
      match on_packet (sm_groups m) (p, sub) last with
      | None => None
      | Some gs => Some {| sm_groups := gs; sm_rejected := sm_rejected m; sm_accepted := sm_accepted m; sm_done := sm_done m;
                           sm_target := sm_target m; sm_next := sm_next m; sm_step := sm_step m |}
      end
  | EWritten size err last =>
      match on_written (sm_groups m) size err last with
      | None => None
      | Some gs => Some {| sm_groups := gs; sm_rejected := sm_rejected m; sm_accepted := sm_accepted m; sm_done := sm_done m;
                           sm_target := sm_target m; sm_next := sm_next m; sm_step := sm_step m |}
      end
  | EDone id err bytes =>          (* the handler of the oldest group, which has been sent *)
      match sm_groups m with
      | [] => None
      | g :: gs =>
          if sent g && (id =? mg_id g) && (err =? mg_err g) && (bytes =? mg_bytes g) then
            Some {| sm_groups := gs; sm_rejected := sm_rejected m; sm_accepted := sm_accepted m; sm_done := S (sm_done m);
                    sm_target := sm_target m; sm_next := sm_next m; sm_step := sm_step m |}
          else None
      end
  | EFail id err =>
      match remove_first (id, err) (sm_rejected m) with
      | None => None
      | Some r => Some {| sm_groups := sm_groups m; sm_rejected := r; sm_accepted := sm_accepted m; sm_done := sm_done m;
                          sm_target := sm_target m; sm_next := sm_next m; sm_step := sm_step m |}
      end
  | EFlushCall t =>
      Some {| sm_groups := sm_groups m; sm_rejected := sm_rejected m; sm_accepted := sm_accepted m; sm_done := sm_done m;
              sm_target := fun t' => if Nat.eqb t' t then sm_accepted m else sm_target m t'; sm_next := sm_next m; sm_step := sm_step m |}
  | EFlushReturn t waited =>
      if if waited then Nat.leb (sm_target m t) (sm_done m) else forallb sent (sm_groups m) then Some m else None
  | ESetSeq next step =>
      Some {| sm_groups := sm_groups m; sm_rejected := sm_rejected m; sm_accepted := sm_accepted m; sm_done := sm_done m;
              sm_target := sm_target m; sm_next := next; sm_step := step |}
  end.
Fixpoint smon_run (nsub : Z) (m : smon) (l : list sev) : option smon :=
  match l with [] => Some m | e :: l' => match smon_step nsub m e with None => None | Some m' => smon_run nsub m' l' end end.
Lemma smon_run_app nsub l1 : forall m l2, smon_run nsub m (l1 ++ l2) =
  match smon_run nsub m l1 with None => None | Some m1 => smon_run nsub m1 l2 end.
Proof. induction l1 as [|e l1 IH]; intros m l2; cbn [app smon_run]; [reflexivity|]. destruct (smon_step nsub m e); auto. Qed.

(** *** Plain readings of the log *)
Fixpoint accepted_ids (l : list sev) : list Z :=
  match l with EAccept id _ _ :: l' => id :: accepted_ids l' | _ :: l' => accepted_ids l' | [] => [] end.
Fixpoint done_ids (l : list sev) : list Z :=
  match l with EDone id _ _ :: l' => id :: done_ids l' | _ :: l' => done_ids l' | [] => [] end.
(** Everything that should be transmitted, in order. *)
Fixpoint to_send (l : list sev) : list (pkt * Z) :=
  match l with
  | EAccept _ mode hs :: l' => group_order mode (map (fun h => heap_packets (fst h)) hs) ++ to_send l'
  | _ :: l' => to_send l'
  | [] => []
  end.
Fixpoint packets (l : list sev) : list (pkt * Z) :=
  match l with EPacket p sub _ :: l' => (p, sub) :: packets l' | _ :: l' => packets l' | [] => [] end.
Fixpoint rejections (l : list sev) : list (Z * Z) :=
  match l with EReject id err _ :: l' => (id, err) :: rejections l' | _ :: l' => rejections l' | [] => [] end.
Fixpoint failures (l : list sev) : list (Z * Z) :=
  match l with EFail id err :: l' => (id, err) :: failures l' | _ :: l' => failures l' | [] => [] end.
(** Automatically assigned cnts, with the widths they were reduced to. *)
Fixpoint auto_cnts (l : list sev) : list (Z * Z) :=
  match l with
  | EAccept _ _ hs :: l' => flat_map (fun h => if h_cnt (fst h) <? 0 then [(snd h, h_hab (fst h))] else []) hs ++ auto_cnts l'
  | _ :: l' => auto_cnts l'
  | [] => []
  end.
