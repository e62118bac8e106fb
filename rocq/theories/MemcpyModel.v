(** The non-temporal copies of src/common_memcpy_x86.h and src/common_memcpy.cpp. *)
From Coq Require Import ZArith List Bool.
From Verif Require Import Base.
Import ListNotations.
Open Scope Z_scope.

(** Memory as a function of addresses, and the accesses made to it: reads,
    writes, and vector stores that have to be aligned to their size. *)
Definition memory := Z -> Z.
Inductive access := Rd (a n : Z) | Wr (a n : Z) | Wv (a n : Z).
Record mst := { m_mem : memory; m_tr : list access }.

Definition load (m : memory) (a : Z) (n : nat) : list Z := map (fun i => m (a + Z.of_nat i)) (seq 0 n).
Definition store (m : memory) (a : Z) (l : list Z) : memory := fun x => if (a <=? x) && (x <? a + zlen l) then nth (Z.to_nat (x - a)) l 0 else m x.
Definition note (s : mst) (t : list access) : mst := {| m_mem := m_mem s; m_tr := m_tr s ++ t |}.

(** std::memcpy *)
Definition plain (d a n : Z) (s : mst) : mst :=
  {| m_mem := store (m_mem s) d (load (m_mem s) a (Z.to_nat n)); m_tr := m_tr s ++ [Rd a n; Wr d n] |}.

(** [u] loads of [w] bytes, then [u] stores: the fold expressions of
    src/common_memcpy_x86.h:78-79 and :89-90, [d] and [a] with the offset added. *)
Fixpoint stores (d w : Z) (vals : list (list Z)) (s : mst) : mst :=
  match vals with
  | [] => s
  | v :: vs => stores (d + w) w vs {| m_mem := store (m_mem s) d v; m_tr := m_tr s ++ [Wv d w] |}
  end.
Definition block (u : nat) (w d a : Z) (s : mst) : mst :=
  stores d w (map (fun i => load (m_mem s) (a + Z.of_nat i * w) (Z.to_nat w)) (seq 0 u))
    (note s (map (fun i => Rd (a + Z.of_nat i * w) w) (seq 0 u))).
(** for (; offset + U * sizeof(T) <= n; offset += U * sizeof(T)), :72-80, :83-91;
    gives the final offset *)
Fixpoint blocks (fuel : nat) (u : nat) (w d a n off : Z) (s : mst) : Z * mst :=
  match fuel with
  | O => (off, s)
  | S f => if off + Z.of_nat u * w <=? n then blocks f u w d a n (off + Z.of_nat u * w) (block u w (d + off) (a + off) s) else (off, s)
  end.

(** src/common_memcpy_x86.h:38-100; [w] is sizeof(T).  The fences and
    vzeroupper do not appear. *)
Definition memcpy_x86 (u1 u2 : nat) (w d a n : Z) (s : mst) : mst :=
  let aligned := Z.land ((d + 63) mod 2 ^ 64) (Z.lxor (2 ^ 64 - 1) 63) in
  let head := aligned - d in
  if (0 <? head) && (n <=? head) then plain d a n s
  else
    let '(d, a, n, s) := if 0 <? head then (d + head, a + head, n - head, plain d a head s) else (d, a, n, s) in
    let '(off, s) := blocks (Z.to_nat n) u1 w d a n 0 s in
    let '(off, s) := if (u2 <? u1)%nat then blocks (Z.to_nat n) u2 w d a n off s else (off, s) in
    plain (d + off) (a + off) (n - off) s.
(** The three instances, src/common_memcpy.cpp:27-57 *)
Definition memcpy_sse2 := memcpy_x86 16 4 16.
Definition memcpy_avx := memcpy_x86 8 2 32.
Definition memcpy_avx512 := memcpy_x86 8 1 64.

(** svwhilelt_b8(i, n), a load and a store of the active lanes: nothing is
    accessed when there are none.  SVE stores need no alignment. *)
Definition lanes (vl i n : Z) : Z := Z.max 0 (Z.min vl (n - i)).
Definition sv_copy (d a k : Z) (s : mst) : mst := if k =? 0 then s else plain d a k s.
(** src/common_memcpy.cpp:120-127; both loads come first *)
Fixpoint sve_loop (fuel : nat) (vl d a n i : Z) (s : mst) : Z * mst :=
  match fuel with
  | O => (i, s)
  | S f =>
      if i + 2 * vl <=? n then
        let data0 := load (m_mem s) (a + i) (Z.to_nat vl) in
        let data1 := load (m_mem s) (a + i + vl) (Z.to_nat vl) in
        sve_loop f vl d a n (i + 2 * vl)
          {| m_mem := store (store (m_mem s) (d + i) data0) (d + i + vl) data1;
             m_tr := m_tr s ++ [Rd (a + i) vl; Rd (a + i + vl) vl; Wr (d + i) vl; Wr (d + i + vl) vl] |}
      else (i, s)
  end.
(** :130-135 *)
Fixpoint sve_tail (fuel : nat) (vl d a n i : Z) (s : mst) : mst :=
  match fuel with
  | O => s
  | S f =>
      let s := sv_copy (d + i) (a + i) (lanes vl i n) s in
      let i := i + vl in
      if 0 <? lanes vl i n then sve_tail f vl d a n i s else s
  end.
(** memcpy_nontemporal_sve, :72-137; [vl] is svcntb() *)
Definition memcpy_sve (vl d a n : Z) (s : mst) : mst :=
  let '(i, s) :=
    if 4 * vl <=? n then
      let head := Z.land ((- a) mod 2 ^ 64) (vl - 1) in
      sve_loop (Z.to_nat n) vl d a n head (sv_copy d a (lanes vl 0 head) s)
    else (0, s) in
  sve_tail (S (Z.to_nat n)) vl d a n i s.
