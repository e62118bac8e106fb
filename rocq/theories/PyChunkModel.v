(** Ownership of the Python [Chunk] objects that travel through the chunk
    rings of spead2.recv (src/py_recv.cpp:345-413, 775-898,
    include/spead2/recv_chunk_stream.h:828-900, src/py_common.cpp:396-480).

    A Python [Chunk] cannot be given away, so [put], [put_nowait] and
    [add_free_chunk] move the C++ fields of the chunk into a new
    [chunk_wrapper] that holds a reference to the Python object, and the wrapper
    goes through the ring.  [get] moves the fields back.  If pushing throws, the
    fields are moved back too.

    Simplifications: the rings are FIFO queues with a capacity and a stop flag
    (what C23-C25 prove of [ringbuffer]); producer counts are left out, since a
    last [remove_producer] is a [stop].  Python calls hold the interpreter lock
    and so are atomic, except a blocked [put], which is two steps.  A blocked
    [get] is a [get] that happens later.  Worker threads move wrappers around
    without the lock, which is allowed as a move touches no reference count.
    The buffers themselves are kept alive by the pointers, as in C++. *)
From Coq Require Import List Arith ZArith Bool Lia.
From Verif Require Import ConcBase.
Import ListNotations.

(** [class chunk], include/spead2/recv_chunk_stream.h:51-80.  A buffer is a
    number; [None] is the null pointer.  [graveyard_next] is the list [grave]. *)
Record chunkf := CF {
  c_id : Z; c_sid : Z;
  c_present : option nat; c_psize : nat;
  c_data : option nat; c_extra : option nat }.
Definition chunk0 : chunkf := CF (-1) 0 None 0 None None.

(** What the defaulted move leaves behind: the pointers become null, the
    integers stay as they are. *)
Definition moved_from (f : chunkf) : chunkf := CF (c_id f) (c_sid f) None (c_psize f) None None.

(** A Python [Chunk]: its C++ part, its reference count, and whether it has not
    been deallocated. *)
Record pobj := PO { o_f : chunkf; o_rc : nat; o_live : bool }.
(** [class chunk_wrapper], src/py_recv.cpp:350-354. *)
Record wrapper := WR { w_f : chunkf; w_obj : nat }.
Record ring := RG { r_cap : nat; r_items : list wrapper; r_stopped : bool }.

Record st := ST {
  objs : list pobj;                   (* the Python chunk objects *)
  users : list nat;                   (* references the application holds *)
  bufs : list (list Z);               (* contents of the buffers *)
  rings : list ring;
  pend : list (nat * wrapper);        (* blocked calls of [put]: ring, wrapper *)
  held : list wrapper;                (* chunks a stream is filling *)
  grave : list wrapper }.             (* include/spead2/recv_chunk_stream.h:870-876 *)

Definition with_objs (s : st) v := ST v (users s) (bufs s) (rings s) (pend s) (held s) (grave s).
Definition with_users (s : st) v := ST (objs s) v (bufs s) (rings s) (pend s) (held s) (grave s).
Definition with_bufs (s : st) v := ST (objs s) (users s) v (rings s) (pend s) (held s) (grave s).
Definition with_rings (s : st) v := ST (objs s) (users s) (bufs s) v (pend s) (held s) (grave s).
Definition with_pend (s : st) v := ST (objs s) (users s) (bufs s) (rings s) v (held s) (grave s).
Definition with_held (s : st) v := ST (objs s) (users s) (bufs s) (rings s) (pend s) v (grave s).
Definition with_grave (s : st) v := ST (objs s) (users s) (bufs s) (rings s) (pend s) (held s) v.

Inductive exc := EValue | EFull | EEmpty | EStopped | EInterrupt.
(** What the Python caller sees. *)
Inductive res := RNone | RChunk (o : nat) | RErr (e : exc) | RBlocked.

(** What happened to the buffers of a chunk: the tuple of a chunk that can be
    recognised again. *)
Definition key := (option nat * nat * option nat * option nat)%type.
Definition keyof (f : chunkf) : key := (c_present f, c_psize f, c_data f, c_extra f).
Inductive event :=
| VPut (o : nat) (k : key)     (* fields moved from the Python object to a wrapper *)
| VBack (o : nat) (k : key)    (* the call raised: moved back *)
| VOut (o : nat) (k : key)     (* came out of a ring: moved back *)
| VLost (o : nat) (k : key).   (* the wrapper was destroyed, with what it held *)

(** [UB] : use of a deallocated object, or a write outside a buffer. *)
Inductive out := UB | Done (s : st) (r : res) (evs : list event).

Fixpoint del {A} (l : list A) (n : nat) : list A :=
  match l, n with [], _ => [] | _ :: l', O => l' | x :: l', S n' => x :: del l' n' end.

(** Reference counting.  [None] is undefined behaviour. *)
Definition incref (o : nat) (s : st) : option st :=
  match nth_error (objs s) o with
  | Some (PO f rc true) => Some (with_objs s (upd (objs s) o (PO f (S rc) true)))
  | _ => None
  end.
Definition decref (o : nat) (s : st) : option st :=
  match nth_error (objs s) o with
  | Some (PO f (S (S rc)) true) => Some (with_objs s (upd (objs s) o (PO f (S rc) true)))
  | Some (PO f 1 true) => Some (with_objs s (upd (objs s) o (PO (moved_from f) 0 false)))
  | _ => None
  end.
Definition getf (o : nat) (s : st) : option chunkf :=
  match nth_error (objs s) o with Some (PO f _ true) => Some f | _ => None end.
Definition setf (o : nat) (f : chunkf) (s : st) : option st :=
  match nth_error (objs s) o with
  | Some (PO _ rc true) => Some (with_objs s (upd (objs s) o (PO f rc true)))
  | _ => None
  end.

Definition obind {A B} (a : option A) (f : A -> option B) : option B :=
  match a with Some x => f x | None => None end.
Notation "x <- a ;; b" := (obind a (fun x => b)) (at level 61, a at next level, right associativity).

(** [wrap_chunk], src/py_recv.cpp:375-385.  [Some None] is [std::invalid_argument]. *)
Definition wrap_chunk (o : nat) (s : st) : option (option (wrapper * st)) :=
  f <- getf o s;;
  match c_data f, c_present f with
  | Some _, Some _ =>
      s1 <- setf o (moved_from f) s;;
      s2 <- incref o s1;;
      Some (Some (WR f o, s2))
  | _, _ => Some None
  end.

(** Undo the move: [c = std::move( *wrapper )], then the wrapper is destroyed
    (src/py_recv.cpp:404-410). *)
Definition unwind (w : wrapper) (s : st) : option st :=
  s1 <- setf (w_obj w) (w_f w) s;; decref (w_obj w) s1.

(** [unwrap_chunk], src/py_recv.cpp:360-367.  The wrapper's reference goes to the caller. *)
Definition unwrap_chunk (w : wrapper) (s : st) : option st :=
  s1 <- setf (w_obj w) (w_f w) s;;
  Some (with_users s1 (upd (users s1) (w_obj w) (S (nth (w_obj w) (users s1) 0)))).

(** [ringbuffer::try_push] : nothing is moved unless there is a slot
    (include/spead2/common_ringbuffer.h; C23-C25). *)
Definition try_push (r : nat) (w : wrapper) (s : st) : (exc + st) :=
  match nth_error (rings s) r with
  | Some (RG cap items stopped) =>
      if stopped then inl EStopped
      else if length items <? cap then inr (with_rings s (upd (rings s) r (RG cap (items ++ [w]) stopped)))
      else inl EFull
  | None => inl EStopped
  end.

(** [memset(c->present.get(), 0, c->present_size)] *)
Definition zero (b n : nat) (s : st) : option st :=
  match nth_error (bufs s) b with
  | Some l => if n <=? length l then Some (with_bufs s (upd (bufs s) b (repeat 0%Z n ++ skipn n l))) else None
  | None => None
  end.

(** Destroying the wrappers of the graveyard, with the interpreter lock held. *)
Fixpoint drop_all (l : list wrapper) (s : st) : option st :=
  match l with [] => Some s | w :: l' => s1 <- decref (w_obj w) s;; drop_all l' s1 end.

Inductive field := FPresent | FData | FExtra.
(** The property setters, src/py_recv.cpp:780-806.  Setting [present] also sets
    [present_size] from the buffer. *)
Definition set_field (fl : field) (b : option nat) (s : st) (f : chunkf) : chunkf :=
  match fl with
  | FPresent =>
      CF (c_id f) (c_sid f) b (match b with Some i => length (nth i (bufs s) []) | None => 0 end) (c_data f) (c_extra f)
  | FData => CF (c_id f) (c_sid f) (c_present f) (c_psize f) b (c_extra f)
  | FExtra => CF (c_id f) (c_sid f) (c_present f) (c_psize f) (c_data f) b
  end.
Definition field_of (fl : field) (f : chunkf) : option nat :=
  match fl with FPresent => c_present f | FData => c_data f | FExtra => c_extra f end.

Inductive wake := Go | Stop | Interrupt.
Inductive label :=
| LNew                                        (* Chunk() *)
| LBuf (l : list Z)                           (* a new writable buffer *)
| LSet (o : nat) (fl : field) (b : option nat)(* chunk.present = ..., etc. *)
| LIds (o : nat) (cid sid : Z)                (* chunk.chunk_id = ..., chunk.stream_id = ... *)
| LRef (o : nat)                              (* another name for the chunk *)
| LUnref (o : nat)                            (* del chunk *)
| LPutNow (r o : nat)                         (* ring.put_nowait(chunk) *)
| LPut (r o : nat)                            (* ring.put(chunk), up to where it returns or blocks *)
| LWake (i : nat) (w : wake)                  (* a blocked put goes on *)
| LGet (r : nat)                              (* ring.get(), get_nowait(), next *)
| LAddFree (r o : nat)                        (* stream.add_free_chunk(chunk), [r] the free ring *)
| LStop (r : nat)                             (* ring.stop() *)
| LAlloc (r : nat) (cid sid : Z)              (* a worker takes a chunk from the free ring *)
| LWrite (i : nat) (fl : field) (k : nat) (v : Z)  (* a worker writes into a chunk it is filling *)
| LReady (i r : nat)                          (* a worker pushes a full chunk to the data ring *)
| LFree.                                      (* stream.stop() destroys the graveyard *)

(** The application can only name objects that it holds a reference to. *)
Definition owns (o : nat) (s : st) : bool := 0 <? nth o (users s) 0.
Definition validb (b : option nat) (s : st) : bool :=
  match b with Some i => i <? length (bufs s) | None => true end.

Definition ret (o : option st) (r : res) (evs : list event) : out :=
  match o with Some s => Done s r evs | None => UB end.

(** One step; [None] means that it cannot happen now. *)
Definition step (l : label) (s : st) : option out :=
  match l with
  | LNew =>
      Some (Done (with_users (with_objs s (objs s ++ [PO chunk0 1 true])) (users s ++ [1])) (RChunk (length (objs s))) [])
  | LBuf b => Some (Done (with_bufs s (bufs s ++ [b])) RNone [])
  | LSet o fl b =>
      if owns o s && validb b s
      then Some (ret (f <- getf o s;; setf o (set_field fl b s f) s) RNone [])
      else None
  | LIds o cid sid =>
      if owns o s
      then Some (ret (f <- getf o s;; setf o (CF cid sid (c_present f) (c_psize f) (c_data f) (c_extra f)) s) RNone [])
      else None
  | LRef o =>
      if owns o s
      then Some (ret (s1 <- incref o s;; Some (with_users s1 (upd (users s1) o (S (nth o (users s1) 0))))) RNone [])
      else None
  | LUnref o =>
      if owns o s
      then Some (ret (decref o (with_users s (upd (users s) o (nth o (users s) 0 - 1)))) RNone [])
      else None
  (* push_chunk with ring.try_push, src/py_recv.cpp:391-413, 868-880 *)
  | LPutNow r o =>
      if owns o s && (r <? length (rings s)) then
        match wrap_chunk o s with
        | None => Some UB
        | Some None => Some (Done s (RErr EValue) [])
        | Some (Some (w, s1)) =>
            match try_push r w s1 with
            | inr s2 => Some (Done s2 RNone [VPut o (keyof (w_f w))])
            | inl e => Some (ret (unwind w s1) (RErr e) [])
            end
        end
      else None
  (* push_chunk with ring.push(..., gil_release_tag()), src/py_recv.cpp:856-867.
     While it is blocked the call itself holds a reference to its argument. *)
  | LPut r o =>
      if owns o s && (r <? length (rings s)) then
        match wrap_chunk o s with
        | None => Some UB
        | Some None => Some (Done s (RErr EValue) [])
        | Some (Some (w, s1)) =>
            match try_push r w s1 with
            | inr s2 => Some (Done s2 RNone [VPut o (keyof (w_f w))])
            | inl EFull =>
                Some (ret (s2 <- incref o s1;; Some (with_pend s2 (pend s2 ++ [(r, w)]))) RBlocked [VPut o (keyof (w_f w))])
            | inl e => Some (ret (unwind w s1) (RErr e) [])
            end
        end
      else None
  | LWake i how =>
      match nth_error (pend s) i with
      | None => None
      | Some (r, w) =>
          let s0 := with_pend s (del (pend s) i) in
          match how, try_push r w s0 with
          | Go, inr s1 => Some (ret (decref (w_obj w) s1) RNone [])
          | Stop, inl EStopped =>
              Some (ret (s1 <- unwind w s0;; decref (w_obj w) s1) (RErr EStopped) [VBack (w_obj w) (keyof (w_f w))])
          | Interrupt, _ =>
              Some (ret (s1 <- unwind w s0;; decref (w_obj w) s1) (RErr EInterrupt) [VBack (w_obj w) (keyof (w_f w))])
          | _, _ => None
          end
      end
  (* src/py_recv.cpp:854-855, 884-897 *)
  | LGet r =>
      match nth_error (rings s) r with
      | None => None
      | Some (RG cap [] stopped) => Some (Done s (RErr (if stopped then EStopped else EEmpty)) [])
      | Some (RG cap (w :: items) stopped) =>
          Some (ret (unwrap_chunk w (with_rings s (upd (rings s) r (RG cap items stopped))))
                    (RChunk (w_obj w)) [VOut (w_obj w) (keyof (w_f w))])
      end
  (* push_chunk with chunk_ring_pair::add_free_chunk, src/py_recv.cpp:810-822 and
     include/spead2/recv_chunk_stream.h:829-842.  When the ring has been stopped
     the exception does not reach push_chunk, which then destroys the wrapper. *)
  | LAddFree r o =>
      if owns o s && (r <? length (rings s)) then
        match wrap_chunk o s with
        | None => Some UB
        | Some None => Some (Done s (RErr EValue) [])
        | Some (Some (w, s1)) =>
            match (match c_present (w_f w) with Some b => zero b (c_psize (w_f w)) s1 | None => None end) with
            | None => Some UB
            | Some s2 =>
                match try_push r w s2 with
                | inr s3 => Some (Done s3 RNone [VPut o (keyof (w_f w))])
                | inl EStopped => Some (ret (decref o s2) RNone [VPut o (keyof (w_f w)); VLost o (keyof (w_f w))])
                | inl e => Some (ret (unwind w s2) (RErr e) [])
                end
            end
        end
      else None
  | LStop r =>
      match nth_error (rings s) r with
      | Some (RG cap items _) => Some (Done (with_rings s (upd (rings s) r (RG cap items true))) RNone [])
      | None => None
      end
  (* make_allocate, include/spead2/recv_chunk_stream.h:844-859; the ids are set by
     chunk_window::get_chunk *)
  | LAlloc r cid sid =>
      match nth_error (rings s) r with
      | Some (RG cap (WR f o :: items) stopped) =>
          Some (Done (with_held (with_rings s (upd (rings s) r (RG cap items stopped)))
                  (held s ++ [WR (CF cid sid (c_present f) (c_psize f) (c_data f) (c_extra f)) o])) RNone [])
      | _ => None
      end
  (* Payload, presence flags and extra data of a heap.  The place callback
     promises offsets within data and extra, and an index below present_size. *)
  | LWrite i fl k v =>
      match nth_error (held s) i with
      | Some (WR f o) =>
          match field_of fl f with
          | Some b =>
              match nth_error (bufs s) b with
              | None => Some UB
              | Some l =>
                  if k <? match fl with FPresent => c_psize f | _ => length l end
                  then if k <? length l then Some (Done (with_bufs s (upd (bufs s) b (upd l k v))) RNone []) else Some UB
                  else None
              end
          | None => None
          end
      | None => None
      end
  (* make_ready, include/spead2/recv_chunk_stream.h:861-886; a push to a full ring waits *)
  | LReady i r =>
      match nth_error (held s) i with
      | Some w =>
          if r <? length (rings s) then
            let s0 := with_held s (del (held s) i) in
            match try_push r w s0 with
            | inr s1 => Some (Done s1 RNone [])
            | inl EStopped => Some (Done (with_grave s0 (w :: grave s0)) RNone [])
            | inl _ => None
            end
          else None
      | None => None
      end
  (* this->graveyard.reset(), include/spead2/recv_chunk_stream.h:932-941 *)
  | LFree =>
      Some (ret (drop_all (grave s) (with_grave s [])) RNone (map (fun w => VLost (w_obj w) (keyof (w_f w))) (grave s)))
  end.

(** Whole runs, with the log of events. *)
Inductive run := Crash | Blocked | End (s : st) (log : list event).
Fixpoint exec (ls : list label) (s : st) (log : list event) : run :=
  match ls with
  | [] => End s log
  | l :: ls' =>
      match step l s with
      | None => Blocked
      | Some UB => Crash
      | Some (Done s' _ evs) => exec ls' s' (log ++ evs)
      end
  end.

(** At the start there are some empty rings. *)
Definition init (caps : list nat) : st :=
  ST [] [] [] (map (fun c => RG c [] false) caps) [] [] [].
