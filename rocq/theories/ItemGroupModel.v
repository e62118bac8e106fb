(** Item groups and heap generators in Python: src/spead2/__init__.py (ItemGroup)
    and src/spead2/send/__init__.py (HeapGenerator). *)
From Coq Require Import ZArith List Bool.
Import ListNotations.
Open Scope Z_scope.

(** An Item object.  Simplified: names are numbers; the description, shape, dtype,
    order and format are one number; so is a value, and decoding gives back the
    value that was sent (C43). *)
Record item := { it_id : Z; it_name : Z; it_desc : Z; it_value : option Z; it_version : Z }.

(** Python dictionaries: association lists in order of insertion *)
Definition dict := list (Z * nat).
Fixpoint lookup {A} (k : Z) (d : list (Z * A)) : option A := match d with [] => None | (k', o) :: r => if k =? k' then Some o else lookup k r end.
Fixpoint assign {A} (k : Z) (o : A) (d : list (Z * A)) : list (Z * A) := match d with [] => [(k, o)] | (k', o') :: r => if k =? k' then (k', o) :: r else (k', o') :: assign k o r end.
(** del d[k]; [None] is KeyError *)
Fixpoint del {A} (k : Z) (d : list (Z * A)) : option (list (Z * A)) :=
  match d with [] => None | (k', o) :: r => if k =? k' then Some r else match del k r with Some r => Some ((k', o) :: r) | None => None end end.

(** ItemGroup, lines 674-676, and all Item objects there ever were; an object is
    its position in the list, so two objects are the same if their numbers are. *)
Record group := { g_objs : list item; g_id : dict; g_name : dict }.
Definition g_empty : group := {| g_objs := []; g_id := []; g_name := [] |}.
Definition obj (g : group) (o : nat) : option item := nth_error (g_objs g) o.
Fixpoint set_nth {A} (n : nat) (x : A) (l : list A) : list A := match n, l with O, _ :: r => x :: r | S n, y :: r => y :: set_nth n x r | _, [] => [] end.
Definition put (g : group) (o : nat) (x : item) : group := {| g_objs := set_nth o x (g_objs g); g_id := g_id g; g_name := g_name g |}.

(** The setter of Item.value, lines 380-385 (the value is not None) *)
Definition with_value (x : item) (v : Z) : item := {| it_id := it_id x; it_name := it_name x; it_desc := it_desc x; it_value := Some v; it_version := it_version x + 1 |}.
Definition with_version (x : item) (n : Z) : item := {| it_id := it_id x; it_name := it_name x; it_desc := it_desc x; it_value := it_value x; it_version := n |}.
Definition set_value (g : group) (o : nat) (v : Z) : group := match obj g o with Some x => put g o (with_value x v) | None => g end.

(** _remove_item, lines 678-680 *)
Definition remove_item (g : group) (x : item) : option group :=
  match del (it_id x) (g_id g) with
  | None => None
  | Some i => match del (it_name x) (g_name g) with None => None | Some n => Some {| g_objs := g_objs g; g_id := i; g_name := n |} end
  end.

(** _add_item, lines 682-727.  [o] is the new object, already in the list.
    [None]: an exception. *)
Definition add_obj (g : group) (o : nat) : option group :=
  match obj g o with
  | None => None
  | Some x =>
      let old := lookup (it_id x) (g_id g) in
      let old_by_name := lookup (it_name x) (g_name g) in
      let item_of (p : option nat) := match p with Some p => obj g p | None => None end in
      match match item_of old with Some y => (it_name y =? it_name x) && (it_desc y =? it_desc x) | None => false end, old with
      | true, Some p => Some match it_value x with Some v => set_value g p v | None => g end
      | _, _ =>
          let version := it_version x in
          let version := match item_of old with Some y => Z.max version (it_version y + 1) | None => version end in
          let version := match item_of old_by_name with Some y => Z.max version (it_version y + 1) | None => version end in
          let g := put g o (with_version x version) in
          match match item_of old with Some y => remove_item g y | None => Some g end with
          | None => None
          | Some g =>
              match match old_by_name with
                    | Some p => if match old with Some q => Nat.eqb p q | None => false end then Some g
                                else match obj g p with Some y => remove_item g y | None => None end
                    | None => Some g
                    end with
              | None => None
              | Some g => Some {| g_objs := g_objs g; g_id := assign (it_id x) o (g_id g); g_name := assign (it_name x) o (g_name g) |}
              end
          end
      end
  end.
Definition add_item_obj (g : group) (x : item) : option group :=
  add_obj {| g_objs := g_objs g ++ [x]; g_id := g_id g; g_name := g_name g |} (length (g_objs g)).

(** Item.__init__, lines 360-364 *)
Definition new_item (id name desc : Z) (v : option Z) : item := {| it_id := id; it_name := name; it_desc := desc; it_value := v; it_version := 1 |}.
(** The search for an unused ID, lines 739-742; the fuel is enough *)
Fixpoint fresh_id (fuel : nat) (id : Z) (d : dict) : Z :=
  match fuel, lookup id d with S f, Some _ => fresh_id f (id + 1) d | _, _ => id end.
Definition unreserved_id := 4096.
(** add_item, lines 729-745 *)
Definition add_item (g : group) (id : option Z) (name desc : Z) (v : option Z) : option group :=
  let id := match id with Some id => id | None => fresh_id (length (g_id g)) unreserved_id (g_id g) end in
  add_item_obj g (new_item id name desc v).

(** A heap: the descriptors and the items *)
Record heap := { h_descr : list (Z * Z * Z); h_items : list (Z * Z) }.
(** include/spead2/common_defines.h: STREAM_CTRL_ID *)
Definition stream_ctrl_id := 6.
(** The second loop of update, lines 802-813: set_from_raw assigns the value, then
    the version is incremented once more *)
Definition update_item (g : group) (id v : Z) : group :=
  if id <=? stream_ctrl_id then g
  else match lookup id (g_id g) with
       | None => g
       | Some o => match obj g o with Some x => put g o (with_version (with_value x v) (it_version x + 2)) | None => g end
       end.
Fixpoint add_descrs (g : group) (l : list (Z * Z * Z)) : option group :=
  match l with
  | [] => Some g
  | (id, name, desc) :: r => match add_item_obj g (new_item id name desc None) with Some g => add_descrs g r | None => None end
  end.
(** update, lines 781-814 *)
Definition update (g : group) (h : heap) : option group :=
  match add_descrs g (h_descr h) with Some g => Some (fold_left (fun g x => update_item g (fst x) (snd x)) (h_items h) g) | None => None end.

(** ** HeapGenerator *)
(** _ItemInfo, send/__init__.py:42-46.  The weak reference is the object; a dead
    reference gives None, which no item in the group is. *)
Record info := { i_version : option Z; i_cnt : option Z; i_item : nat }.
Record gen := { n_info : list (Z * info); n_cnt : Z; n_freq : option Z }.
Definition n_init (freq : option Z) : gen := {| n_info := []; n_cnt := 0; n_freq := freq |}.
Inductive mode := Stale | All | Never.
(** _get_info, :76-79 *)
Definition get_info (n : gen) (id : Z) (o : nat) : info := match lookup id (n_info n) with Some i => i | None => {| i_version := None; i_cnt := None; i_item := o |} end.
(** _descriptor_stale, :81-97; it also changes the info *)
Definition descriptor_stale (n : gen) (o : nat) (i : info) : bool * info :=
  match i_cnt i with
  | None => (true, i)
  | Some c =>
      if match n_freq n with Some f => f <=? n_cnt n - c | None => false end then (true, i)
      else if negb (Nat.eqb (i_item i) o) then (true, {| i_version := None; i_cnt := i_cnt i; i_item := o |})
      else (false, i)
  end.
Definition is_version (i : info) (v : Z) : bool := match i_version i with Some w => w =? v | None => false end.
(** The body of the loop of add_to_heap, :130-140 *)
Definition add_one (g : group) (descriptors data : mode) (n : gen) (o : nat) : gen * heap :=
  match obj g o with
  | None => (n, {| h_descr := []; h_items := [] |})
  | Some x =>
      let i := get_info n (it_id x) o in
      let '(stale, i) := match descriptors with All => (true, i) | Stale => descriptor_stale n o i | Never => (false, i) end in
      let i := if stale then {| i_version := i_version i; i_cnt := Some (n_cnt n); i_item := i_item i |} else i in
      let send := match it_value x with None => false | Some _ => match data with All => true | Stale => negb (is_version i (it_version x)) | Never => false end end in
      let i := if send then {| i_version := Some (it_version x); i_cnt := i_cnt i; i_item := i_item i |} else i in
      ({| n_info := assign (it_id x) i (n_info n); n_cnt := n_cnt n; n_freq := n_freq n |},
       {| h_descr := if stale then [(it_id x, it_name x, it_desc x)] else [];
          h_items := match it_value x with Some v => if send then [(it_id x, v)] else [] | None => [] end |})
  end.
Fixpoint add_all (g : group) (descriptors data : mode) (n : gen) (l : list nat) : gen * heap :=
  match l with
  | [] => (n, {| h_descr := []; h_items := [] |})
  | o :: r => let '(n, h1) := add_one g descriptors data n o in
              let '(n, h2) := add_all g descriptors data n r in
              (n, {| h_descr := h_descr h1 ++ h_descr h2; h_items := h_items h1 ++ h_items h2 |})
  end.
(** add_to_heap, :99-142, on an empty heap *)
Definition get_heap (g : group) (descriptors data : mode) (n : gen) : gen * heap :=
  let '(n, h) := add_all g descriptors data n (map snd (g_name g)) in
  ({| n_info := n_info n; n_cnt := n_cnt n + 1; n_freq := n_freq n |}, h).
