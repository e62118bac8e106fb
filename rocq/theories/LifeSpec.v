(** What users of a stream and writers of readers rely on, in terms of what happens and in
    which order (the documentation of reader, recv_stream.h:774-808, and of stream::stop,
    :1070-1081), without the model of the code. *)
From Coq Require Import List Bool Arith.
From Verif Require Import LifeModel.
Import ListNotations.

(** May [e] happen when [a] is what has happened so far? *)
Definition allowed (explicit : bool) (a : list event) (e : event) : Prop :=
  ~ In Gone a /\
  match e with
  | Made r => ~ In (Made r) a /\ ~ In StopRet a
  | Started r => In (Made r) a /\ ~ In (Started r) a /\ (explicit = false -> ~ In (Stopped r) a /\ ~ In StopRet a)
  | Stopped r => In (Made r) a /\ ~ In (Stopped r) a /\ ~ In StopRet a
  | Ran r => In (Made r) a /\ In (Started r) a /\ (forall r', ~ In (Stopped r') a) /\ ~ In StopRet a
  | RanPosted | Heaps => (forall r', ~ In (Stopped r') a) /\ ~ In StopRet a
  | Gone => In StopRet a
  | Ignored | Refused | StopRet => True
  end.
Definition ordered (explicit : bool) (tr : list event) : Prop := forall a e b, tr = a ++ e :: b -> allowed explicit a e.

(** Threads that use the heaps of the stream, or its readers in a handler *)
Definition inside (p : pc) : Prop :=
  match p with
  | FRun | RFlush _ | RLoop _ _ | HBody _ _ _ | HStats | PBody => True
  | _ => False
  end.
