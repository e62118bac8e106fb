(** mcdump (src/mcdump.cpp) with one packet per work request (class capture): the network
    adapter, the network thread, the collector thread and the writer with its disk threads
    ([DumpWModel]), for runs with a file.  The rings are atomic bounded queues.  Not modelled:
    rates, signals other than the one that sets stop, errors of the verbs API.  The variant
    with a multi-packet receive queue is in [DumpMModel]. *)
From Coq Require Import ZArith List Bool Arith.
From Verif Require Import Base ConcBase DumpWModel.
Import ListNotations.
Open Scope Z_scope.

(** Numbers in memory on a little-endian machine *)
Definition le (n : nat) (z : Z) : list Z := rev (be_encode n z).
(** max_records, n_chunks: chunking_scheme, lines 385-390.  stamps: timestamp_support *)
Record dconf := { d_w : wconf; snaplen : Z; max_records : nat; n_chunks : nat; count : Z; stamps : bool }.
(** file_header, lines 183-192 *)
Definition file_header (c : dconf) : list Z :=
  le 4 0xa1b23c4d ++ le 2 2 ++ le 2 4 ++ le 4 0 ++ le 4 0 ++ le 4 (snaplen c) ++ le 4 1.
(** One entry of a chunk: chunk_entry and its two iovecs, lines 195-223 and 482-495, and the part of the
    storage it refers to *)
Record entry := { e_data : list Z; e_sec : Z; e_nsec : Z; e_incl : Z; e_orig : Z; e_iov : nat }.
Definition record_header (e : entry) : list Z := le 4 (e_sec e) ++ le 4 (e_nsec e) ++ le 4 (e_incl e) ++ le 4 (e_orig e).
(** A chunk as it goes through the rings: which memory, n_records, full *)
Record handle := { k_id : nat; k_n : nat; k_full : bool }.
(** A completion: success, wr_id, byte_len, time.  [cp_chunk] is for the proofs: the program
    does not see which chunk the work request was from. *)
Record compl := { cp_ok : bool; cp_slot : nat; cp_len : nat; cp_ns : Z; cp_chunk : nat }.

(** network_thread, lines 801-882: at the outer loop; popping; at the inner loop; polling;
    passing the chunk on; ring.stop (line 700); over *)
Inductive npc := NTop | NPop | NIn (k : handle) (expect : nat) | NPoll (k : handle) (expect : nat) | NPush (k : handle) | NStop | NDone.
(** collect_thread, lines 534-560: header; popping; before iovec [i]; chunk_done, lines
    499-524; its push; after the loop; close was called *)
Inductive cpc := CStart | CPop | CIov (k : handle) (i : nat) | CPost (k : handle) | CFree (k : handle) | CEnd | COver.
Record dst := { net : npc; coll : cpc; ring : list handle; rstop : bool; free : list handle;
  posted : list (nat * nat); cq : list compl; mem : nat -> nat -> entry; remaining : Z;
  packets : Z; bytes : Z; errors : Z; wr : wst;
  (* for the proofs: the packets received so far, and the last chunk if it was passed on
     without being full *)
  g_recvd : list (list Z * Z); g_last : option handle }.

Definition slots (c : dconf) (id from : nat) : list (nat * nat) := map (pair id) (seq from (max_records c - from)).
Definition dinit (c : dconf) (m : nat -> nat -> entry) (wm : nat -> nat -> Z) : dst :=
  {| net := NTop; coll := CStart; ring := []; rstop := false; free := map (fun i => {| k_id := i; k_n := 0; k_full := false |}) (seq 0 (n_chunks c));
     posted := flat_map (fun i => slots c i 0) (seq 0 (n_chunks c)); cq := []; mem := m; remaining := count c; packets := 0; bytes := 0; errors := 0;
     wr := winit (d_w c) wm; g_recvd := []; g_last := None |}.

Definition set_mem (m : nat -> nat -> entry) (id s : nat) (e : entry) : nat -> nat -> entry := fun i j => if (i =? id)%nat && (j =? s)%nat then e else m i j.
Definition set_net (st : dst) (p : npc) : dst := {| net := p; coll := coll st; ring := ring st; rstop := rstop st; free := free st; posted := posted st; cq := cq st; mem := mem st; remaining := remaining st; packets := packets st; bytes := bytes st; errors := errors st; wr := wr st; g_recvd := g_recvd st; g_last := g_last st |}.
Definition set_coll (st : dst) (p : cpc) (w : wst) : dst := {| net := net st; coll := p; ring := ring st; rstop := rstop st; free := free st; posted := posted st; cq := cq st; mem := mem st; remaining := remaining st; packets := packets st; bytes := bytes st; errors := errors st; wr := w; g_recvd := g_recvd st; g_last := g_last st |}.

(** The adapter: a packet goes into the first work request that is posted; packets that
    find none, or are longer than the snap length, are lost.  Or a work request fails. *)
Definition hw_recv (c : dconf) (st : dst) (pkt : list Z) (ns : Z) : option dst :=
  match posted st with
  | (id, s) :: p =>
      if zlen pkt <=? snaplen c then
        let e := mem st id s in
        Some {| net := net st; coll := coll st; ring := ring st; rstop := rstop st; free := free st; posted := p;
                cq := cq st ++ [{| cp_ok := true; cp_slot := s; cp_len := length pkt; cp_ns := ns; cp_chunk := id |}];
                mem := set_mem (mem st) id s {| e_data := pkt ++ skipn (length pkt) (e_data e); e_sec := e_sec e; e_nsec := e_nsec e; e_incl := e_incl e; e_orig := e_orig e; e_iov := e_iov e |};
                remaining := remaining st; packets := packets st; bytes := bytes st; errors := errors st; wr := wr st; g_recvd := g_recvd st ++ [(pkt, ns)]; g_last := g_last st |}
      else None
  | [] => None
  end.
Definition hw_fail (st : dst) : option dst :=
  match posted st with
  | (id, s) :: p => Some {| net := net st; coll := coll st; ring := ring st; rstop := rstop st; free := free st; posted := p;
      cq := cq st ++ [{| cp_ok := false; cp_slot := s; cp_len := 0; cp_ns := 0; cp_chunk := id |}]; mem := mem st;
      remaining := remaining st; packets := packets st; bytes := bytes st; errors := errors st; wr := wr st; g_recvd := g_recvd st; g_last := g_last st |}
  | [] => None
  end.

Definition no_limit : Z := 2 ^ 64 - 1.
(** The network thread.  [got]: whether the poll finds the next completion.  Asserts are
    left out, as in a build with NDEBUG. *)
Definition net_step (c : dconf) (st : dst) (got : bool) : option dst :=
  match net st with
  | NTop => Some (set_net st (if w_stop (wr st) || negb (0 <? remaining st) then NStop else NPop))
  | NPop =>
      match free st with
      | k :: fr => Some {| net := NIn k (Z.to_nat (if remaining st <? Z.of_nat (max_records c) then remaining st else Z.of_nat (max_records c))); coll := coll st; ring := ring st; rstop := rstop st; free := fr; posted := posted st; cq := cq st; mem := mem st; remaining := remaining st; packets := packets st; bytes := bytes st; errors := errors st; wr := wr st; g_recvd := g_recvd st; g_last := g_last st |}
      | [] => None
      end
  | NIn k e => Some (set_net st (if w_stop (wr st) || (e =? 0)%nat then NPush {| k_id := k_id k; k_n := k_n k; k_full := (k_n k =? max_records c)%nat |} else NPoll k e))
  | NPoll k e =>
      match got, cq st with
      | true, cp :: q =>
          let rem := if remaining st =? no_limit then remaining st else remaining st - 1 in
          if cp_ok cp then
            let id := k_id k in let s := cp_slot cp in let len := Z.of_nat (cp_len cp) in
            let r := {| e_data := e_data (mem st id s); e_sec := if stamps c then cp_ns cp / 10 ^ 9 else 0; e_nsec := if stamps c then cp_ns cp mod 10 ^ 9 else 0; e_incl := len; e_orig := len; e_iov := cp_len cp |} in
            Some {| net := NIn {| k_id := id; k_n := S (k_n k); k_full := k_full k |} (e - 1); coll := coll st; ring := ring st; rstop := rstop st; free := free st; posted := posted st; cq := q; mem := set_mem (mem st) id s r; remaining := rem; packets := packets st + 1; bytes := bytes st + len; errors := errors st; wr := wr st; g_recvd := g_recvd st; g_last := g_last st |}
          else
            Some {| net := NIn k (e - 1); coll := coll st; ring := ring st; rstop := rstop st; free := free st; posted := posted st; cq := q; mem := mem st; remaining := rem; packets := packets st; bytes := bytes st; errors := errors st + 1; wr := wr st; g_recvd := g_recvd st; g_last := g_last st |}
      | true, [] => None
      | false, _ => Some (set_net st (NIn k e))
      end
  | NPush k =>
      if (length (ring st) <? n_chunks c)%nat then
        Some {| net := NTop; coll := coll st; ring := ring st ++ [k]; rstop := rstop st; free := free st; posted := posted st; cq := cq st; mem := mem st; remaining := remaining st; packets := packets st; bytes := bytes st; errors := errors st; wr := wr st; g_recvd := g_recvd st; g_last := if k_full k then g_last st else Some k |}
      else None
  | NStop => Some {| net := NDone; coll := coll st; ring := ring st; rstop := true; free := free st; posted := posted st; cq := cq st; mem := mem st; remaining := remaining st; packets := packets st; bytes := bytes st; errors := errors st; wr := wr st; g_recvd := g_recvd st; g_last := g_last st |}
  | NDone => None
  end.

(** The memory an iovec refers to.  It is read when write is called; the code reads it
    piecemeal until write returns ([C69_undisturbed]: it makes no difference). *)
Definition iov (m : nat -> nat -> entry) (id i : nat) : list Z :=
  let e := m id (i / 2)%nat in if Nat.even i then record_header e else firstn (e_iov e) (e_data e).
(** The collector thread: inside the writer, or outside *)
Definition coll_step (c : dconf) (st : dst) : option dst :=
  match w_pc (wr st) with
  | WIdle =>
      match coll st with
      | CStart => option_map (set_coll st CPop) (wcall (wr st) (file_header c))
      | CPop =>
          match ring st with
          | k :: r => Some {| net := net st; coll := CIov k 0; ring := r; rstop := rstop st; free := free st; posted := posted st; cq := cq st; mem := mem st; remaining := remaining st; packets := packets st; bytes := bytes st; errors := errors st; wr := wr st; g_recvd := g_recvd st; g_last := g_last st |}
          | [] => if rstop st then Some (set_coll st CEnd (wr st)) else None
          end
      | CIov k i => if (i <? 2 * k_n k)%nat then option_map (set_coll st (CIov k (S i))) (wcall (wr st) (iov (mem st) (k_id k) i)) else Some (set_coll st (CPost k) (wr st))
      | CPost k =>
          if k_full k then
            Some {| net := net st; coll := CFree {| k_id := k_id k; k_n := 0; k_full := false |}; ring := ring st; rstop := rstop st; free := free st; posted := posted st ++ slots c (k_id k) 0; cq := cq st; mem := mem st; remaining := remaining st; packets := packets st; bytes := bytes st; errors := errors st; wr := wr st; g_recvd := g_recvd st; g_last := g_last st |}
          else Some (set_coll st (CFree k) (wr st))
      | CFree k =>
          if (length (free st) <? n_chunks c)%nat then
            Some {| net := net st; coll := CPop; ring := ring st; rstop := rstop st; free := free st ++ [k]; posted := posted st; cq := cq st; mem := mem st; remaining := remaining st; packets := packets st; bytes := bytes st; errors := errors st; wr := wr st; g_recvd := g_recvd st; g_last := g_last st |}
          else None
      | CEnd => option_map (set_coll st COver) (wclose (wr st))
      | COver => None
      end
  | _ => option_map (set_coll st (coll st)) (wstep (d_w c) (wr st))
  end.

Inductive dlabel := HRecv (pkt : list Z) (ns : Z) | HFail | Sig | Net (got : bool) | Coll | Disk (i : nat) (a : dact).
Definition dlstep (c : dconf) (st : dst) (l : dlabel) : option dst :=
  match l with
  | HRecv pkt ns => hw_recv c st pkt ns
  | HFail => hw_fail st
  | Sig => Some (set_coll st (coll st) (raise_stop (wr st)))
  | Net got => net_step c st got
  | Coll => coll_step c st
  | Disk i a => option_map (set_coll st (coll st)) (dstep (d_w c) (wr st) i a)
  end.
Fixpoint drun (c : dconf) (st : dst) (ls : list dlabel) : option dst :=
  match ls with [] => Some st | l :: r => match dlstep c st l with Some st' => drun c st' r | None => None end end.

(** capture::sizes, lines 766-799: packets per chunk, chunks, bytes per chunk, from the
    snap length (positive here), the size asked for and the limits of the device.
    device_chunks, lines 780-782, is computed and never used. *)
Record device := { max_cqe : Z; max_qp_wr : Z; max_mr : Z }.
Definition sizes (snap net_buffer : Z) (d : device) : Z * Z * Z :=
  let m := 2 * 1024 * 1024 / snap in let m := if m =? 0 then 1 else m in
  let n := net_buffer / (m * snap) in let n := if n =? 0 then 1 else n in
  let slots := Z.min (max_cqe d) (max_qp_wr d) in
  let m := if slots <? m then slots else m in
  let n := if slots <? n * m then slots / m else n in
  (m, n, snap * m).
