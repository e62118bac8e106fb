(** Readings of the log of a byte-stream sender. *)
From Coq Require Import ZArith List Bool.
From Verif Require Import Base SendStreamModel SendStreamSpec ByteStreamModel.
Import ListNotations.
Open Scope Z_scope.

(** The events of the send stream, and everything put on the wire. *)
Definition sevs (log : list bev) : list sev := flat_map (fun e => match e with BSev e => [e] | BOut _ => [] end) log.
Definition on_wire (log : list bev) : list Z := flat_map (fun e => match e with BSev _ => [] | BOut l => l end) log.
(** The packets handed to the writer, and what became of them: the number of
    bytes written and the error. *)
Definition handed (tr : list sev) : list pkt := map fst (packets tr).
Definition writes (tr : list sev) : list (Z * Z) := flat_map (fun e => match e with EWritten n err _ => [(n, err)] | _ => [] end) tr.
(** Completions: handler, error, bytes. *)
Definition dones (tr : list sev) : list (Z * Z * Z) := flat_map (fun e => match e with EDone id err b => [(id, err, b)] | _ => [] end) tr.

Section Wire.
Variable wire : pkt -> list Z * list (list Z).
(** The bytes of a packet. *)
Definition wbytes (p : pkt) : list Z := fst (wire p) ++ concat (snd (wire p)).
(** What is on the wire of each packet written. *)
Definition wired (ps : list pkt) (ws : list (Z * Z)) : list Z :=
  concat (map (fun pw => firstn (Z.to_nat (fst (snd pw))) (wbytes (fst pw))) (combine ps ws)).
(** A write without error writes all of the packet. *)
Definition write_ok (p : pkt) (w : Z * Z) : Prop :=
  0 <= fst w <= zlen (wbytes p) /\ (snd w = 0 -> fst w = zlen (wbytes p)).
End Wire.

(** The first error of a list of writes, and their total. *)
Definition first_err (ws : list (Z * Z)) : Z := fold_left (fun e w => if e =? 0 then snd w else e) ws 0.
Definition total (ws : list (Z * Z)) : Z := fold_left (fun b w => (b + fst w) mod 2 ^ 64) ws 0.

(** The packets of each accepted request, in order. *)
Fixpoint requests (tr : list sev) : list (list pkt) :=
  match tr with
  | EAccept _ mode hs :: l => map fst (group_order mode (map (fun h => heap_packets (fst h)) hs)) :: requests l
  | _ :: l => requests l
  | [] => []
  end.
(** Cuts a list into pieces as long as those of another. *)
Fixpoint cut {A B} (ps : list (list A)) (ws : list B) : list (list B) :=
  match ps with [] => [] | p :: ps' => firstn (length p) ws :: cut ps' (skipn (length p) ws) end.
