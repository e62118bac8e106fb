(** mcdump (src/mcdump.cpp) with a multi-packet receive queue (class capture_mprq, lines 905-1131): the adapter, the
    network thread, the collector thread and the writer with its disk threads ([DumpWModel]), for runs with a file.
    What it shares with the other variant is in [DumpModel]: header, chunks, collector.  The rings are atomic bounded
    queues.  The ring of work requests in memory shared with the adapter is a list here (its counters and doorbell are
    C60, [MprqModel]); counters do not wrap.  Not modelled: rates, signals other than the one that sets stop, errors of
    the verbs API. *)
From Coq Require Import ZArith List Bool Arith.
From Verif Require Import Base ConcBase DumpWModel DumpModel.
Import ListNotations.
Open Scope Z_scope.

(** [m_d]: as in the other variant, but max_records is also the number of strides of a chunk, line 964 *)
Record mconf := { m_d : dconf; stride : nat }.
(** An entry of a chunk: the record header, and the iovec of the data (offset into the storage and length) *)
Record entry := { e_sec : Z; e_nsec : Z; e_incl : Z; e_orig : Z; e_off : nat; e_len : nat }.
Definition record_header (e : entry) : list Z := le 4 (e_sec e) ++ le 4 (e_nsec e) ++ le 4 (e_incl e) ++ le 4 (e_orig e).
(** A completion: success, packed byte count, time.  The rest is for the proofs: chunk, strides, filler *)
Record compl := { cp_ok : bool; cp_cnt : Z; cp_ns : Z; cp_chunk : nat; cp_from : nat; cp_n : nat; cp_fill : bool }.
(** network_thread, lines 1032-1113 *)
Inductive npc := NTop | NPop | NIn (k : handle) | NPoll (k : handle) | NPush (k : handle) | NStop | NDone.
Record dst := { net : npc; coll : cpc; ring : list handle; rstop : bool; free : list handle;
  wqs : list nat; used : nat;       (* the adapter: chunks posted, strides used of the first *)
  cq : list compl;
  sto : nat -> nat -> Z;            (* the storage of every chunk *)
  ent : nat -> nat -> entry;
  tstr : nat; infl : nat;           (* ibv_wq_mprq_t: tail_strides, head - tail *)
  remaining : Z; packets : Z; bytes : Z; errors : Z; wr : wst;
  g_recvd : list (list Z * Z); g_last : option handle }.

(** The constructor of capture_base posts all chunks *)
Definition dinit (c : mconf) (s : nat -> nat -> Z) (e : nat -> nat -> entry) (wm : nat -> nat -> Z) : dst :=
  {| net := NTop; coll := CStart; ring := []; rstop := false; free := map (fun i => {| k_id := i; k_n := 0; k_full := false |}) (seq 0 (n_chunks (m_d c)));
     wqs := seq 0 (n_chunks (m_d c)); used := 0; cq := []; sto := s; ent := e; tstr := 0; infl := n_chunks (m_d c); remaining := count (m_d c); packets := 0; bytes := 0; errors := 0;
     wr := winit (d_w (m_d c)) wm; g_recvd := []; g_last := None |}.

Definition set_ent (m : nat -> nat -> entry) (id s : nat) (e : entry) : nat -> nat -> entry := fun i j => if (i =? id)%nat && (j =? s)%nat then e else m i j.
Definition put (m : nat -> nat -> Z) (id off : nat) (d : list Z) : nat -> nat -> Z :=
  fun i j => if (i =? id)%nat && (off <=? j)%nat && (j <? off + length d)%nat then nth (j - off) d 0 else m i j.
Definition get (m : nat -> nat -> Z) (id off len : nat) : list Z := map (m id) (seq off len).
Definition set_net (st : dst) (p : npc) : dst := {| net := p; coll := coll st; ring := ring st; rstop := rstop st; free := free st; wqs := wqs st; used := used st; cq := cq st; sto := sto st; ent := ent st; tstr := tstr st; infl := infl st; remaining := remaining st; packets := packets st; bytes := bytes st; errors := errors st; wr := wr st; g_recvd := g_recvd st; g_last := g_last st |}.
Definition set_coll (st : dst) (p : cpc) (w : wst) : dst := {| net := net st; coll := p; ring := ring st; rstop := rstop st; free := free st; wqs := wqs st; used := used st; cq := cq st; sto := sto st; ent := ent st; tstr := tstr st; infl := infl st; remaining := remaining st; packets := packets st; bytes := bytes st; errors := errors st; wr := w; g_recvd := g_recvd st; g_last := g_last st |}.
Definition set_card (st : dst) (w : list nat) (u : nat) (q : list compl) (s : nat -> nat -> Z) (g : list (list Z * Z)) : dst := {| net := net st; coll := coll st; ring := ring st; rstop := rstop st; free := free st; wqs := w; used := u; cq := q; sto := s; ent := ent st; tstr := tstr st; infl := infl st; remaining := remaining st; packets := packets st; bytes := bytes st; errors := errors st; wr := wr st; g_recvd := g; g_last := g_last st |}.

(** The adapter.  A packet takes whole strides, at least one, of the first chunk posted; it may give up the rest of a
    chunk that it has used some of, with a filler completion; packets that find no room are lost.  Or a work request
    fails.  The byte count of a completion is packed: length, strides and filler flag (src/common_ibv.cpp:595-598). *)
Definition strides (c : mconf) (n : nat) : nat := Nat.max 1 ((n + stride c - 1) / stride c).
Definition packed (len n : nat) (fill : bool) : Z := Z.of_nat len + 65536 * Z.of_nat n + (if fill then 2 ^ 31 else 0).
Definition advance (c : mconf) (w : list nat) (u : nat) : list nat * nat := if (u <? max_records (m_d c))%nat then (w, u) else (tl w, 0%nat).
Definition hw_recv (c : mconf) (st : dst) (pkt : list Z) (ns : Z) : option dst :=
  match wqs st with
  | id :: w =>
      let n := strides c (length pkt) in
      if (used st + n <=? max_records (m_d c))%nat && (zlen pkt <? 65536) then
        let '(w', u') := advance c (wqs st) (used st + n) in
        Some (set_card st w' u' (cq st ++ [{| cp_ok := true; cp_cnt := packed (length pkt) n false; cp_ns := ns; cp_chunk := id; cp_from := used st; cp_n := n; cp_fill := false |}])
                (put (sto st) id (used st * stride c) pkt) (g_recvd st ++ [(pkt, ns)]))
      else None
  | [] => None
  end.
Definition hw_fill (c : mconf) (st : dst) : option dst :=
  match wqs st with
  | id :: w =>
      let n := (max_records (m_d c) - used st)%nat in
      if (0 <? used st)%nat then
        Some (set_card st w 0 (cq st ++ [{| cp_ok := true; cp_cnt := packed 0 n true; cp_ns := 0; cp_chunk := id; cp_from := used st; cp_n := n; cp_fill := true |}]) (sto st) (g_recvd st))
      else None
  | [] => None
  end.
Definition hw_fail (c : mconf) (st : dst) : option dst :=
  match wqs st with
  | id :: w => Some (set_card st w 0 (cq st ++ [{| cp_ok := false; cp_cnt := 0; cp_ns := 0; cp_chunk := id; cp_from := used st; cp_n := max_records (m_d c) - used st; cp_fill := false |}]) (sto st) (g_recvd st))
  | [] => None
  end.

(** ibv_wq_mprq_t::read_wc (src/common_ibv.cpp:592-620), two_byte_shift_en being off: length, offset, filler, last,
    new tail_strides *)
Definition read_wc (c : mconf) (cnt : Z) (ts : nat) : Z * nat * bool * bool * nat :=
  let s := Z.shiftr cnt 16 in
  let fill := negb (Z.land s 32768 =? 0) in
  let s := if fill then s - 32768 else s in
  let t := (ts + Z.to_nat s)%nat in
  let last := (max_records (m_d c) <=? t)%nat in
  (Z.land cnt 65535, (ts * stride c)%nat, fill, last, if last then 0%nat else t).

(** The network thread.  [got]: whether the poll finds the next completion.  Asserts are left out, as in a build with
    NDEBUG. *)
Definition net_step (c : mconf) (st : dst) (got : bool) : option dst :=
  match net st with
  | NTop => Some (set_net st (if w_stop (wr st) || negb (0 <? remaining st) then NStop else NPop))
  | NPop =>
      match free st with
      | k :: fr => Some {| net := NIn k; coll := coll st; ring := ring st; rstop := rstop st; free := fr; wqs := wqs st; used := used st; cq := cq st; sto := sto st; ent := ent st; tstr := tstr st; infl := infl st; remaining := remaining st; packets := packets st; bytes := bytes st; errors := errors st; wr := wr st; g_recvd := g_recvd st; g_last := g_last st |}
      | [] => None
      end
  | NIn k => Some (set_net st (if w_stop (wr st) || negb (0 <? remaining st) || k_full k then NPush k else NPoll k))
  | NPoll k =>
      match got, cq st with
      | true, cp :: q =>
          if cp_ok cp then
            let '(len, off, fill, last, t) := read_wc c (cp_cnt cp) (tstr st) in
            let id := k_id k in let i := k_n k in
            let incl := if len <=? snaplen (m_d c) then len else snaplen (m_d c) in
            let e := {| e_sec := if stamps (m_d c) then cp_ns cp / 10 ^ 9 else 0; e_nsec := if stamps (m_d c) then cp_ns cp mod 10 ^ 9 else 0; e_incl := incl; e_orig := len; e_off := off; e_len := Z.to_nat incl |} in
            let rem := if remaining st =? no_limit then remaining st else remaining st - 1 in
            Some {| net := NIn {| k_id := id; k_n := if fill then i else S i; k_full := k_full k || last |}; coll := coll st; ring := ring st; rstop := rstop st; free := free st; wqs := wqs st; used := used st; cq := q; sto := sto st;
                    ent := if fill then ent st else set_ent (ent st) id i e; tstr := t; infl := if last then (infl st - 1)%nat else infl st;
                    remaining := if fill then remaining st else rem; packets := if fill then packets st else packets st + 1; bytes := if fill then bytes st else bytes st + len; errors := errors st; wr := wr st; g_recvd := g_recvd st; g_last := g_last st |}
          else
            Some {| net := NIn k; coll := coll st; ring := ring st; rstop := rstop st; free := free st; wqs := wqs st; used := used st; cq := q; sto := sto st; ent := ent st; tstr := tstr st; infl := infl st; remaining := remaining st; packets := packets st; bytes := bytes st; errors := errors st + 1; wr := wr st; g_recvd := g_recvd st; g_last := g_last st |}
      | true, [] => None
      | false, _ => Some (set_net st (NIn k))
      end
  | NPush k =>
      if (length (ring st) <? n_chunks (m_d c))%nat then
        Some {| net := NTop; coll := coll st; ring := ring st ++ [k]; rstop := rstop st; free := free st; wqs := wqs st; used := used st; cq := cq st; sto := sto st; ent := ent st; tstr := tstr st; infl := infl st; remaining := remaining st; packets := packets st; bytes := bytes st; errors := errors st; wr := wr st; g_recvd := g_recvd st; g_last := if k_full k then g_last st else Some k |}
      else None
  | NStop => Some {| net := NDone; coll := coll st; ring := ring st; rstop := true; free := free st; wqs := wqs st; used := used st; cq := cq st; sto := sto st; ent := ent st; tstr := tstr st; infl := infl st; remaining := remaining st; packets := packets st; bytes := bytes st; errors := errors st; wr := wr st; g_recvd := g_recvd st; g_last := g_last st |}
  | NDone => None
  end.

(** The memory an iovec refers to, read when write is called *)
Definition iov (s : nat -> nat -> Z) (m : nat -> nat -> entry) (id i : nat) : list Z :=
  let e := m id (i / 2)%nat in if Nat.even i then record_header e else get s id (e_off e) (e_len e).
(** The collector thread (lines 499-560); post_recv throws if the queue is full (src/common_ibv.cpp:571-572), which is
    no step here ([C71_capacity]: it does not happen; the queue has at least n_chunks entries, line 965) *)
Definition coll_step (c : mconf) (st : dst) : option dst :=
  match w_pc (wr st) with
  | WIdle =>
      match coll st with
      | CStart => option_map (set_coll st CPop) (wcall (wr st) (file_header (m_d c)))
      | CPop =>
          match ring st with
          | k :: r => Some {| net := net st; coll := CIov k 0; ring := r; rstop := rstop st; free := free st; wqs := wqs st; used := used st; cq := cq st; sto := sto st; ent := ent st; tstr := tstr st; infl := infl st; remaining := remaining st; packets := packets st; bytes := bytes st; errors := errors st; wr := wr st; g_recvd := g_recvd st; g_last := g_last st |}
          | [] => if rstop st then Some (set_coll st CEnd (wr st)) else None
          end
      | CIov k i => if (i <? 2 * k_n k)%nat then option_map (set_coll st (CIov k (S i))) (wcall (wr st) (iov (sto st) (ent st) (k_id k) i)) else Some (set_coll st (CPost k) (wr st))
      | CPost k =>
          if k_full k then
            if (infl st <? n_chunks (m_d c))%nat then
              Some {| net := net st; coll := CFree {| k_id := k_id k; k_n := 0; k_full := false |}; ring := ring st; rstop := rstop st; free := free st; wqs := wqs st ++ [k_id k]; used := used st; cq := cq st; sto := sto st; ent := ent st; tstr := tstr st; infl := S (infl st); remaining := remaining st; packets := packets st; bytes := bytes st; errors := errors st; wr := wr st; g_recvd := g_recvd st; g_last := g_last st |}
            else None
          else Some (set_coll st (CFree k) (wr st))
      | CFree k =>
          if (length (free st) <? n_chunks (m_d c))%nat then
            Some {| net := net st; coll := CPop; ring := ring st; rstop := rstop st; free := free st ++ [k]; wqs := wqs st; used := used st; cq := cq st; sto := sto st; ent := ent st; tstr := tstr st; infl := infl st; remaining := remaining st; packets := packets st; bytes := bytes st; errors := errors st; wr := wr st; g_recvd := g_recvd st; g_last := g_last st |}
          else None
      | CEnd => option_map (set_coll st COver) (wclose (wr st))
      | COver => None
      end
  | _ => option_map (set_coll st (coll st)) (wstep (d_w (m_d c)) (wr st))
  end.

Inductive dlabel := HRecv (pkt : list Z) (ns : Z) | HFill | HFail | Sig | Net (got : bool) | Coll | Disk (i : nat) (a : dact).
Definition dlstep (c : mconf) (st : dst) (l : dlabel) : option dst :=
  match l with
  | HRecv pkt ns => hw_recv c st pkt ns
  | HFill => hw_fill c st
  | HFail => hw_fail c st
  | Sig => Some (set_coll st (coll st) (raise_stop (wr st)))
  | Net got => net_step c st got
  | Coll => coll_step c st
  | Disk i a => option_map (set_coll st (coll st)) (dstep (d_w (m_d c)) (wr st) i a)
  end.
Fixpoint drun (c : mconf) (st : dst) (ls : list dlabel) : option dst :=
  match ls with [] => Some st | l :: r => match dlstep c st l with Some st' => drun c st' r | None => None end end.

(** capture_mprq::sizes, lines 984-1030: strides per chunk, chunks, bytes per chunk, from the size asked for and the
    limits of the device; and the size of the completion queue, line 950 *)
Record mdevice := { min_ls : Z; max_ls : Z; min_ln : Z; max_ln : Z; md_qp_wr : Z; md_mr : Z; md_cqe : Z }.
Definition clamp (x lo hi : Z) : Z := if x <? lo then lo else if hi <? x then hi else x.
Definition msizes (net_buffer : Z) (d : mdevice) : Z * Z * Z :=
  let ls := clamp 6 (min_ls d) (max_ls d) in
  let ln := clamp ((21 - ls) mod 2 ^ 32) (min_ln d) (max_ln d) in
  let m := 2 ^ ln in let cs := m * 2 ^ ls in
  let n := net_buffer / cs in let n := if n =? 0 then 1 else n in
  let dev := Z.min (md_qp_wr d) (md_mr d) in
  let n := if dev <? n then dev else n in
  (m, n, cs).
Definition mcqe (s : Z * Z * Z) : Z := let '(m, n, _) := s in m * n.
