(** What the constructor of the multi-packet ibverbs receiver has to guarantee. *)
From Coq Require Import ZArith.
From Verif Require Import MprqModel.
Open Scope Z_scope.

(** The doorbell has 16 bits, the number of strides in a completion 15, offsets in a buffer 32;
    the ring of the card has room for all buffers, and the completion queue for a
    completion per stride. *)
Record mcfg_ok (c : mconfig) : Prop := {
  mo_wqe : 1 <= wqe c < 65536;
  mo_cnt : exists e, 0 <= e <= 31 /\ wqe_cnt c = 2 ^ e;
  mo_room : wqe c <= wqe_cnt c;
  mo_strides : 1 <= n_strides c < 32768;
  mo_stride : 1 <= stride c;
  mo_offset : wqe_size c <= 2 ^ 32;
  mo_cqe : wqe c * n_strides c <= cqe c
}.
