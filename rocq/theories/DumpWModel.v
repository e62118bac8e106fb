(** The writer of mcdump (src/mcdump.cpp:232-383): one thread (the collector) fills
    buffers, any number of disk threads write them to the file.  The two rings are taken as
    atomic bounded queues (C23-C25 and C67 are about what they are made of). *)
From Coq Require Import ZArith List Bool Arith.
From Verif Require Import ConcBase.
Import ListNotations.

(** writer::buffer, lines 235-240.  The data always has [bufsize] bytes. *)
Record buf := { b_off : nat; b_data : list Z; b_len : nat }.
(** A file: the byte at every offset, holes being zero, and the size. *)
Record file := { f_byte : nat -> Z; f_size : nat }.
Definition pwrite (f : file) (off : nat) (data : list Z) : file :=
  {| f_byte := fun p => if (off <=? p) && (p <? off + length data) then nth (p - off) data 0%Z else f_byte f p;
     f_size := match data with [] => f_size f | _ => Nat.max (f_size f) (off + length data) end |}.
Definition ftruncate (f : file) (n : nat) : file := {| f_byte := fun p => if p <? n then f_byte f p else 0%Z; f_size := n |}.
Definition content (f : file) : list Z := map (f_byte f) (seq 0 (f_size f)).

(** bufsize: 8 MiB, line 242.  depth: compute_depth, lines 263-269.  Here any sizes. *)
Record wconf := { bufsize : nat; depth : nat; disks : nat }.

(** Where the collector is in the writer: outside; in write with bytes left, lines 328-340;
    in flush before and after the push, lines 342-348, called from write with bytes left or
    from close; in close, lines 305-326.  [WThrew]: future.get has thrown in close. *)
Inductive wpc :=
| WIdle | WCopy (data : list Z) | WPush (data : list Z) (closing : bool) | WPop (data : list Z) (closing : bool)
| WStop | WJoin (i : nat) | WTrunc | WClosed | WThrew | WTerminate.
(** writer_thread, lines 350-383: waiting for a buffer, writing one of which [done] bytes are
    written, about to return one, finished, failed *)
Inductive dpc := DIdle | DWrite (b : buf) (done : nat) | DReturn (b : buf) | DDone | DFailed.
(** [w_all] is for the proofs: all bytes given to write so far.  [w_stop] is the global
    variable stop, line 225. *)
Record wst := { w_pc : wpc; w_cur : option buf; w_total : nat; w_ring : list buf; w_rstop : bool; w_free : list buf;
  w_disks : list dpc; w_file : file; w_stop : bool; w_all : list Z }.

(** Constructor, lines 271-293; the file was opened with O_TRUNC.  [mem] is what happens
    to be in the memory of each buffer. *)
Definition new_buf (mem : nat -> nat -> Z) (bs i : nat) : buf := {| b_off := 0; b_data := map (mem i) (seq 0 bs); b_len := 0 |}.
Definition winit (c : wconf) (mem : nat -> nat -> Z) : wst :=
  {| w_pc := WIdle; w_cur := Some (new_buf mem (bufsize c) 0); w_total := 0; w_ring := []; w_rstop := false;
     w_free := map (new_buf mem (bufsize c)) (seq 1 (depth c - 1)); w_disks := repeat DIdle (disks c);
     w_file := {| f_byte := fun _ => 0%Z; f_size := 0 |}; w_stop := false; w_all := [] |}.

Definition set_pc (w : wst) (p : wpc) : wst := {| w_pc := p; w_cur := w_cur w; w_total := w_total w; w_ring := w_ring w; w_rstop := w_rstop w; w_free := w_free w; w_disks := w_disks w; w_file := w_file w; w_stop := w_stop w; w_all := w_all w |}.
Definition set_disk (w : wst) (i : nat) (d : dpc) : wst := {| w_pc := w_pc w; w_cur := w_cur w; w_total := w_total w; w_ring := w_ring w; w_rstop := w_rstop w; w_free := w_free w; w_disks := upd (w_disks w) i d; w_file := w_file w; w_stop := w_stop w; w_all := w_all w |}.
Definition raise_stop (w : wst) : wst := {| w_pc := w_pc w; w_cur := w_cur w; w_total := w_total w; w_ring := w_ring w; w_rstop := w_rstop w; w_free := w_free w; w_disks := w_disks w; w_file := w_file w; w_stop := true; w_all := w_all w |}.

(** write is called (only from outside the writer) *)
Definition wcall (w : wst) (data : list Z) : option wst :=
  match w_pc w with
  | WIdle => Some {| w_pc := WCopy data; w_cur := w_cur w; w_total := w_total w; w_ring := w_ring w; w_rstop := w_rstop w; w_free := w_free w; w_disks := w_disks w; w_file := w_file w; w_stop := w_stop w; w_all := w_all w ++ data |}
  | _ => None
  end.
(** close is called, lines 307-310 *)
Definition wclose (w : wst) : option wst :=
  match w_pc w, w_cur w with
  | WIdle, Some b => Some (set_pc w (if 0 <? b_len b then WPush [] true else WStop))
  | _, _ => None
  end.
(** One turn of the loop of write, lines 330-339 *)
Definition copy_in (bs : nat) (b : buf) (data : list Z) : buf * list Z :=
  let n := Nat.min (length data) (bs - b_len b) in
  ({| b_off := b_off b; b_data := firstn (b_len b) (b_data b) ++ firstn n data ++ skipn (b_len b + n) (b_data b); b_len := b_len b + n |}, skipn n data).
(** What the collector does next inside the writer; [None]: it waits, or is outside.
    future.get, line 314, waits for the thread and throws what the thread threw; then
    [writer_threads] is not cleared, and the destructor of capture_base, lines 610-616,
    calls close again, where get on the same future, which has no state any more, throws
    out of the destructor.  ftruncate and close are taken to succeed. *)
Definition wstep (c : wconf) (w : wst) : option wst :=
  match w_pc w, w_cur w with
  | WCopy data, Some b =>
      match data with
      | [] => Some (set_pc w WIdle)
      | _ => let (b', rest) := copy_in (bufsize c) b data in
          Some {| w_pc := if b_len b' =? bufsize c then WPush rest false else WCopy rest; w_cur := Some b'; w_total := w_total w; w_ring := w_ring w; w_rstop := w_rstop w; w_free := w_free w; w_disks := w_disks w; w_file := w_file w; w_stop := w_stop w; w_all := w_all w |}
      end
  | WPush data cl, Some b =>
      if length (w_ring w) <? depth c then
        Some {| w_pc := WPop data cl; w_cur := None; w_total := w_total w + b_len b; w_ring := w_ring w ++ [b]; w_rstop := w_rstop w; w_free := w_free w; w_disks := w_disks w; w_file := w_file w; w_stop := w_stop w; w_all := w_all w |}
      else None
  | WPop data cl, None =>
      match w_free w with
      | b :: fr => Some {| w_pc := if cl then WStop else WCopy data; w_cur := Some {| b_off := w_total w; b_data := b_data b; b_len := b_len b |}; w_total := w_total w; w_ring := w_ring w; w_rstop := w_rstop w; w_free := fr; w_disks := w_disks w; w_file := w_file w; w_stop := w_stop w; w_all := w_all w |}
      | [] => None
      end
  | WStop, _ => Some {| w_pc := WJoin 0; w_cur := w_cur w; w_total := w_total w; w_ring := w_ring w; w_rstop := true; w_free := w_free w; w_disks := w_disks w; w_file := w_file w; w_stop := w_stop w; w_all := w_all w |}
  | WJoin i, _ =>
      match nth_error (w_disks w) i with
      | None => Some (set_pc w WTrunc)
      | Some DDone => Some (set_pc w (WJoin (S i)))
      | Some DFailed => Some (raise_stop (set_pc w WThrew))
      | Some _ => None
      end
  | WTrunc, _ => Some {| w_pc := WClosed; w_cur := w_cur w; w_total := w_total w; w_ring := w_ring w; w_rstop := w_rstop w; w_free := []; w_disks := w_disks w; w_file := ftruncate (w_file w) (w_total w); w_stop := w_stop w; w_all := w_all w |}
  | WThrew, _ => Some (set_pc w WTerminate)
  | _, _ => None
  end.
(** Steps of disk thread [i].  [DoWrite n]: pwrite writes n bytes.  [DoInt]: it is
    interrupted.  [DoFail]: it fails, and the thread throws. *)
Inductive dact := DoPop | DoWrite (n : nat) | DoInt | DoFail | DoReturn | DoExit.
Definition dstep (c : wconf) (w : wst) (i : nat) (a : dact) : option wst :=
  match nth_error (w_disks w) i, a with
  | Some DIdle, DoPop =>
      match w_ring w with
      | b :: r => Some {| w_pc := w_pc w; w_cur := w_cur w; w_total := w_total w; w_ring := r; w_rstop := w_rstop w; w_free := w_free w; w_disks := upd (w_disks w) i (DWrite b 0); w_file := w_file w; w_stop := w_stop w; w_all := w_all w |}
      | [] => None
      end
  | Some DIdle, DoExit => match w_ring w with [] => if w_rstop w then Some (set_disk w i DDone) else None | _ => None end
  | Some (DWrite b k), DoWrite n =>
      if n <=? bufsize c - k then
        Some {| w_pc := w_pc w; w_cur := w_cur w; w_total := w_total w; w_ring := w_ring w; w_rstop := w_rstop w; w_free := w_free w;
                w_disks := upd (w_disks w) i (if k + n =? bufsize c then DReturn b else DWrite b (k + n)); w_file := pwrite (w_file w) (b_off b + k) (firstn n (skipn k (b_data b))); w_stop := w_stop w; w_all := w_all w |}
      else None
  | Some (DWrite _ _), DoInt => Some w
  | Some (DWrite _ _), DoFail => Some (raise_stop (set_disk w i DFailed))
  | Some (DReturn b), DoReturn =>
      if length (w_free w) <? depth c then
        Some {| w_pc := w_pc w; w_cur := w_cur w; w_total := w_total w; w_ring := w_ring w; w_rstop := w_rstop w; w_free := w_free w ++ [{| b_off := b_off b; b_data := b_data b; b_len := 0 |}];
                w_disks := upd (w_disks w) i DIdle; w_file := w_file w; w_stop := w_stop w; w_all := w_all w |}
      else None
  | _, _ => None
  end.

(** Labels of the writer alone *)
Inductive wlabel := LCall (data : list Z) | LClose | LStep | LDisk (i : nat) (a : dact).
Definition wlstep (c : wconf) (w : wst) (l : wlabel) : option wst :=
  match l with LCall d => wcall w d | LClose => wclose w | LStep => wstep c w | LDisk i a => dstep c w i a end.
Fixpoint wrun (c : wconf) (w : wst) (ls : list wlabel) : option wst :=
  match ls with [] => Some w | l :: r => match wlstep c w l with Some w' => wrun c w' r | None => None end end.
