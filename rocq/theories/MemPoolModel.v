(** Model of memory_pool: /repo/src/common_memory_pool.cpp:31-222.

    Atomic steps: a critical section of the pool's mutex, an allocation from the
    base allocator, the release of a pointer.  Any number of concurrent
    allocations, releases and refill tasks, interleaved arbitrarily.  The base
    allocator is modelled as always returning a new block of the size asked for;
    a block is identified by its number.  Simplified: the base allocator does
    not throw; logging and warn_on_empty are left out. *)
From Coq Require Import List Arith Bool.
Import ListNotations.

(** Constructor arguments (:93-109); [mc_ok]: its asserts. *)
Record mcfg := { mc_lower : nat; mc_upper : nat; mc_max_free : nat; mc_initial : nat; mc_low_water : nat }.
Definition mc_ok (c : mcfg) : Prop := mc_lower c <= mc_upper c /\ mc_initial c <= mc_max_free c /\ mc_low_water c <= mc_initial c.

(** A block: number and size. *)
Definition block : Type := nat * nat.
(** A pointer held by the user: the block, whether its deleter is a
    memory_pool_deleter (:55-89), and the size that was asked for. *)
Record handle := { hd_block : block; hd_managed : bool; hd_req : nat }.

(** [mp_refs]: shared_ptrs to the pool held by the user; [mp_pending]: calls of
    allocate between the unlock and the base allocation (:209-210);
    [mp_tasks]: refill tasks, [Some b] after the allocation on line 152;
    [mp_freed]: blocks given back to the base allocator. *)
Record mpool := {
  mp_pool : list block; mp_refilling : bool; mp_alive : bool; mp_refs : nat;
  mp_out : list handle; mp_pending : list nat; mp_tasks : list (option block); mp_freed : list block; mp_next : nat }.

Fixpoint fresh (from n size : nat) : list block := match n with O => [] | S n' => (from, size) :: fresh (S from) n' size end.
(** :93-112 constructor *)
Definition mpool_new (c : mcfg) : mpool :=
  {| mp_pool := fresh 0 (mc_initial c) (mc_upper c); mp_refilling := false; mp_alive := true; mp_refs := 1; mp_out := [];
     mp_pending := []; mp_tasks := []; mp_freed := []; mp_next := mc_initial c |}.

Definition remove_nth {A} (i : nat) (l : list A) : list A := firstn i l ++ skipn (S i) l.

(** The pool lives as long as the user, a managed pointer (through
    memory_pool_deleter::state_t::allocator, :60) or a running call refers to
    it; its destructor frees the blocks in [pool]. *)
Definition settle (s : mpool) : mpool :=
  if mp_alive s && (mp_refs s =? 0) && negb (existsb hd_managed (mp_out s)) && (length (mp_pending s) =? 0)
  then {| mp_pool := []; mp_refilling := mp_refilling s; mp_alive := false; mp_refs := 0; mp_out := mp_out s; mp_pending := [];
          mp_tasks := mp_tasks s; mp_freed := mp_pool s ++ mp_freed s; mp_next := mp_next s |}
  else s.

Inductive mlabel :=
| MAlloc (size : nat)       (* a call of allocate: up to the first unlock *)
| MFresh (i : nat)          (* the base allocation of a pending call *)
| MRelease (i : nat)        (* the user destroys a pointer *)
| MCopy | MDrop             (* the user copies / drops a shared_ptr to the pool *)
| MTask (i : nat).          (* a refill task runs to its next lock or allocation *)

(** [None]: not possible now (e.g. no such pointer). *)
Definition mp_step (c : mcfg) (s : mpool) (l : mlabel) : option mpool :=
  match l with
  | MAlloc size =>
      if mp_refs s =? 0 then None
      else if (mc_lower c <=? size) && (size <=? mc_upper c) then
        match mp_pool s with
        | b :: rest =>                                                  (* :183-201 *)
            let start := (length rest <? mc_low_water c) && negb (mp_refilling s) in
            Some {| mp_pool := rest; mp_refilling := mp_refilling s || start; mp_alive := mp_alive s; mp_refs := mp_refs s;
                    mp_out := {| hd_block := b; hd_managed := true; hd_req := size |} :: mp_out s; mp_pending := mp_pending s;
                    mp_tasks := if start then None :: mp_tasks s else mp_tasks s; mp_freed := mp_freed s; mp_next := mp_next s |}
        | [] =>                                                         (* :204-209 *)
            Some {| mp_pool := []; mp_refilling := mp_refilling s; mp_alive := mp_alive s; mp_refs := mp_refs s; mp_out := mp_out s;
                    mp_pending := size :: mp_pending s; mp_tasks := mp_tasks s; mp_freed := mp_freed s; mp_next := mp_next s |}
        end
      else                                                              (* :216-220 *)
        Some {| mp_pool := mp_pool s; mp_refilling := mp_refilling s; mp_alive := mp_alive s; mp_refs := mp_refs s;
                mp_out := {| hd_block := (mp_next s, size); hd_managed := false; hd_req := size |} :: mp_out s; mp_pending := mp_pending s;
                mp_tasks := mp_tasks s; mp_freed := mp_freed s; mp_next := S (mp_next s) |}
  | MFresh i =>                                                         (* :210 *)
      match nth_error (mp_pending s) i with
      | None => None
      | Some size =>
          Some {| mp_pool := mp_pool s; mp_refilling := mp_refilling s; mp_alive := mp_alive s; mp_refs := mp_refs s;
                  mp_out := {| hd_block := (mp_next s, mc_upper c); hd_managed := true; hd_req := size |} :: mp_out s;
                  mp_pending := remove_nth i (mp_pending s); mp_tasks := mp_tasks s; mp_freed := mp_freed s; mp_next := S (mp_next s) |}
      end
  | MRelease i =>
      match nth_error (mp_out s) i with
      | None => None
      | Some h =>
          let keep := hd_managed h && (length (mp_pool s) <? mc_max_free c) in   (* :116-131 free_impl *)
          Some (settle {| mp_pool := if keep then hd_block h :: mp_pool s else mp_pool s; mp_refilling := mp_refilling s; mp_alive := mp_alive s;
                          mp_refs := mp_refs s; mp_out := remove_nth i (mp_out s); mp_pending := mp_pending s; mp_tasks := mp_tasks s;
                          mp_freed := if keep then mp_freed s else hd_block h :: mp_freed s; mp_next := mp_next s |})
      end
  | MCopy =>
      if mp_refs s =? 0 then None
      else Some {| mp_pool := mp_pool s; mp_refilling := mp_refilling s; mp_alive := mp_alive s; mp_refs := S (mp_refs s); mp_out := mp_out s;
                   mp_pending := mp_pending s; mp_tasks := mp_tasks s; mp_freed := mp_freed s; mp_next := mp_next s |}
  | MDrop =>
      match mp_refs s with
      | O => None
      | S n => Some (settle {| mp_pool := mp_pool s; mp_refilling := mp_refilling s; mp_alive := mp_alive s; mp_refs := n; mp_out := mp_out s;
                               mp_pending := mp_pending s; mp_tasks := mp_tasks s; mp_freed := mp_freed s; mp_next := mp_next s |})
      end
  | MTask i =>
      match nth_error (mp_tasks s) i with
      | None => None
      | Some None =>                                                    (* :152 *)
          Some {| mp_pool := mp_pool s; mp_refilling := mp_refilling s; mp_alive := mp_alive s; mp_refs := mp_refs s; mp_out := mp_out s;
                  mp_pending := mp_pending s; mp_tasks := Some (mp_next s, mc_upper c) :: remove_nth i (mp_tasks s); mp_freed := mp_freed s;
                  mp_next := S (mp_next s) |}
      | Some (Some b) =>
          if negb (mp_alive s) then                                     (* :153-157 *)
            Some {| mp_pool := mp_pool s; mp_refilling := mp_refilling s; mp_alive := mp_alive s; mp_refs := mp_refs s; mp_out := mp_out s;
                    mp_pending := mp_pending s; mp_tasks := remove_nth i (mp_tasks s); mp_freed := b :: mp_freed s; mp_next := mp_next s |}
          else                                                          (* :158-169 *)
            let keep := length (mp_pool s) <? mc_max_free c in
            let pool := if keep then b :: mp_pool s else mp_pool s in
            let stop := mc_initial c <=? length pool in
            Some {| mp_pool := pool; mp_refilling := if stop then false else mp_refilling s; mp_alive := mp_alive s; mp_refs := mp_refs s;
                    mp_out := mp_out s; mp_pending := mp_pending s;
                    mp_tasks := if stop then remove_nth i (mp_tasks s) else None :: remove_nth i (mp_tasks s);
                    mp_freed := if keep then mp_freed s else b :: mp_freed s; mp_next := mp_next s |}
      end
  end.

Inductive mp_reach (c : mcfg) : mpool -> Prop :=
| mp_reach_new : mp_reach c (mpool_new c)
| mp_reach_step s l s' : mp_reach c s -> mp_step c s l = Some s' -> mp_reach c s'.
