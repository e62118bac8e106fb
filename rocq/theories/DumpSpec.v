(** The pcap format, as a reader sees it (https://wiki.wireshark.org/Development/LibpcapFileFormat). *)
From Coq Require Import ZArith List Bool Arith.
From Verif Require Import Base DumpModel.
Import ListNotations.
Open Scope Z_scope.

(** Little-endian number at the start of a byte string *)
Fixpoint read_le (n : nat) (l : list Z) : option (Z * list Z) :=
  match n with
  | O => Some (0, l)
  | S n => match l with b :: r => match read_le n r with Some (z, r') => Some (b + 256 * z, r') | None => None end | [] => None end
  end.
(** A captured packet: time in seconds and nanoseconds, original length, data *)
Record captured := { c_sec : Z; c_nsec : Z; c_orig : Z; c_data : list Z }.
Fixpoint parse_records (fuel : nat) (snap : Z) (l : list Z) : option (list captured) :=
  match fuel, l with
  | _, [] => Some []
  | O, _ => None
  | S fuel, _ =>
      match read_le 4 l with Some (sec, l) =>
      match read_le 4 l with Some (nsec, l) =>
      match read_le 4 l with Some (incl, l) =>
      match read_le 4 l with Some (orig, l) =>
        if (incl <=? snap) && (incl <=? zlen l) then
          match parse_records fuel snap (skipn (Z.to_nat incl) l) with
          | Some r => Some ({| c_sec := sec; c_nsec := nsec; c_orig := orig; c_data := firstn (Z.to_nat incl) l |} :: r)
          | None => None
          end
        else None
      | None => None end | None => None end | None => None end | None => None end
  end.
(** A nanosecond pcap file, version 2.4, of Ethernet frames: snap length and packets *)
Definition parse_pcap (l : list Z) : option (Z * list captured) :=
  match read_le 4 l with Some (magic, l) =>
  match read_le 2 l with Some (major, l) =>
  match read_le 2 l with Some (minor, l) =>
  match read_le 4 l with Some (zone, l) =>
  match read_le 4 l with Some (_, l) =>
  match read_le 4 l with Some (snap, l) =>
  match read_le 4 l with Some (network, l) =>
    if (magic =? 0xa1b23c4d) && (major =? 2) && (minor =? 4) && (zone =? 0) && (network =? 1)
    then match parse_records (length l) snap l with Some r => Some (snap, r) | None => None end else None
  | None => None end | None => None end | None => None end | None => None end | None => None end | None => None end | None => None end.

(** What is to be captured of a packet received at a time *)
Definition capture (stamped : bool) (x : list Z * Z) : captured :=
  {| c_sec := if stamped then snd x / 10 ^ 9 else 0; c_nsec := if stamped then snd x mod 10 ^ 9 else 0; c_orig := zlen (fst x); c_data := fst x |}.
(** The packets that an execution receives *)
Definition received (ls : list dlabel) : list (list Z * Z) := flat_map (fun l => match l with HRecv pkt ns => [(pkt, ns)] | _ => [] end) ls.
(** Executions in which no receive fails, and times fit in the file *)
Definition label_ok (l : dlabel) : Prop := match l with HFail => False | HRecv _ ns => 0 <= ns < 2 ^ 32 * 10 ^ 9 | _ => True end.
