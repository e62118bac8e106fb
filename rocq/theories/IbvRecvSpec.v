(** What an ibverbs receiver has to achieve. *)
From Coq Require Import ZArith List Bool.
From Verif Require Import Base LiveHeapModel StreamModel RawModel ReadersModel ReadersSpec IbvRecvModel.
Import ListNotations.

(** The datagram in a frame, if it holds one *)
Definition frame_ds (f : list Z) (ds : list (list Z)) : Prop := entry_datagrams Ethernet (Frame f (zlen f)) ds.
(** What an entry of the history means for the stream: the packets of the frames, as one
    batch, or a call of the user *)
Inductive means (max : Z) : did -> op -> Prop :=
| means_handled fs dss : Forall2 frame_ds fs dss -> Forall (Forall bytes_ok) dss -> means max (Handled fs) (Batch (flat_map (whole max) (concat dss)) false)
| means_user st : means max (ByUser st) (if st then Stop else Flush).
Definition frames_of (d : did) : list (list Z) := match d with Handled fs => fs | ByUser _ => [] end.
Definition all_frames (l : list did) : list (list Z) := flat_map frames_of l.
