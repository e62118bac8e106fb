(** What the UDP writer has to achieve: datagrams on the wire are the packets. *)
From Coq Require Import ZArith List Bool.
From Verif Require Import Base GsoModel.
Import ListNotations.
Open Scope Z_scope.

(** The datagrams of the packets of [ps] whose outcome is [Sent], in order. *)
Fixpoint datagrams (ps : list pkt) (os : list outcome) : list (nat * list Z) :=
  match ps, os with
  | p :: ps', Sent :: os' => (k_sub p, k_bytes p) :: datagrams ps' os'
  | _ :: ps', Failed :: os' => datagrams ps' os'
  | _, _ => []
  end.

(** What the operating system may answer: ENOPROTOOPT only when the option was
    never set.  [quiet]: it does not refuse to set the option and then refuse to
    clear it. *)
Definition sane (s : ust) (l : label) : Prop :=
  match l with
  | Wake pks r1 r2 => Forall (fun p => 0 < k_size p) pks /\ (r1 = SetNoProto -> u_sock s = 0)
  | _ => True
  end.
Definition quiet (l : label) : Prop := match l with Wake _ SetFail r2 => r2 = SetOk | _ => True end.

Inductive u_reach (P : label -> Prop) : ust -> Prop :=
| u_reach0 : u_reach P u_init
| u_reachS s l s' : u_reach P s -> sane s l -> P l -> step s l = Ok s' -> u_reach P s'.

(** A message of the pending call as the kernel sees it. *)
Definition msg_bytes (s : ust) (h : msg) : list Z := concat (firstn (g_n h) (skipn (g_iov h) (u_iov s))).

(** The packets of a coalesced message of the receiving kernel: all but the
    last have the segment size, the last is not larger. *)
Fixpoint coalesced (seg : Z) (ps : list (list Z)) : Prop :=
  match ps with
  | [] => False
  | [p] => 0 < zlen p <= seg
  | p :: ps' => zlen p = seg /\ coalesced seg ps'
  end.
