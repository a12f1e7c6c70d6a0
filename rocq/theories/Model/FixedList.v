(** The doubly linked lists that share a pool of nodes (detail/fixed_size_list.h).

    A pool is a table of nodes.  A pointer to a node is [Some] of its index in the table and [None] is nullptr.  The sentinel nodes, which
    are members of the lists, are kept at the end of the same table: an entry is added when a list is created and removed when it is
    destroyed.  [value] says whether the value of the node is constructed. *)
From Coq Require Import List Arith Bool.
From Verif Require Import Lang.Mem Model.Indirect Model.Select.
Import ListNotations.

(** detail/fixed_size_list.h:34-53, 69-100. *)
Record list_node (V : Type) := { prev : option nat; next : option nat; value : cell V }.
Arguments prev {V}. Arguments next {V}. Arguments value {V}.

(** detail/fixed_size_list.h:241-250. *)
Record node_pool (V : Type) := { nodes : list (list_node V); first_free : option nat; capacity : nat }.
Arguments nodes {V}. Arguments first_free {V}. Arguments capacity {V}.

Section Model.
Context {A V : Type}.
Implicit Types ns : list (list_node V).

(** The node a pointer points to. *)
Definition pointee (p : option nat) : M A nat := match p with Some i => ret i | None => ub end.

(** Assignments to the fields of a node. *)
Definition set_prev ns (i : nat) (p : option nat) : M A (list (list_node V)) :=
  let* n := rd ns i in wr ns i {| prev := p; next := next n; value := value n |}.
Definition set_next ns (i : nat) (p : option nat) : M A (list (list_node V)) :=
  let* n := rd ns i in wr ns i {| prev := prev n; next := p; value := value n |}.
Definition set_value ns (i : nat) (c : cell V) : M A (list (list_node V)) :=
  let* n := rd ns i in wr ns i {| prev := prev n; next := next n; value := c |}.

Definition with_nodes (p : node_pool V) ns : node_pool V :=
  {| nodes := ns; first_free := first_free p; capacity := capacity p |}.

(** detail/fixed_size_list.h:144-168. *)
Definition new_pool (cap : nat) : M A (node_pool V) :=
  assert (0 <? cap) ;;
  ret {| nodes := map (fun i => {| prev := None; next := if i =? cap - 1 then None else Some (S i); value := Raw |}) (seq 0 cap);
         first_free := Some 0; capacity := cap |}.

(** detail/fixed_size_list.h:185-194. *)
Definition next_free_node (p : node_pool V) : M A (nat * node_pool V) :=
  let* new_node := pointee (first_free p) in
  let* n := rd (nodes p) new_node in
  ret (new_node, {| nodes := nodes p; first_free := next n; capacity := capacity p |}).

(** detail/fixed_size_list.h:196-206. *)
Definition retrieve_nodes (p : node_pool V) (first last : nat) : M A (node_pool V) :=
  let* ns := set_next (nodes p) last (first_free p) in
  ret {| nodes := ns; first_free := Some first; capacity := capacity p |}.

(** detail/fixed_size_list.h:226-239. *)
Definition reset_nodes (p : node_pool V) (until_n : nat) : M A (node_pool V) :=
  let* (ptr, ns) := loop (S until_n) (fun '(n, ptr, ns) =>
    if n <? until_n - 1 then
      let* ns := set_next ns ptr (Some (S ptr)) in
      ret (inl (S n, S ptr, ns))
    else ret (inr (ptr, ns))) (0, 0, nodes p) in
  let* ns := set_next ns ptr (if until_n =? capacity p then None else Some (S ptr)) in
  ret {| nodes := ns; first_free := Some 0; capacity := capacity p |}.

(** detail/fixed_size_list.h:422-426: an empty list.  The result is the sentinel node. *)
Definition new_list (p : node_pool V) : nat * node_pool V :=
  let s := length (nodes p) in
  (s, with_nodes p (nodes p ++ [{| prev := Some s; next := Some s; value := Raw |}])).

(** detail/fixed_size_list.h:91-96: destroys the value of a node; it must be constructed. *)
Definition destroy_node_contents ns (i : nat) : M A (list (list_node V)) :=
  let* n := rd ns i in
  match value n with Raw => ub | _ => set_value ns i Raw end.

(** detail/fixed_size_list.h:475-490, [~fixed_size_list], except that the sentinel node [s] stays in the table. *)
Definition destroy_list (p : node_pool V) (s : nat) : M A (node_pool V) :=
  let* sn := rd (nodes p) s in
  let* ptr := pointee (next sn) in
  if ptr =? s then ret p else
  let* ns := loop (S (length (nodes p))) (fun '(ptr, ns) =>
    let* n := rd ns ptr in
    let* ns := destroy_node_contents ns ptr in
    let* next_ptr := pointee (next n) in
    if next_ptr =? s then ret (inr ns) else ret (inl (next_ptr, ns))) (ptr, nodes p) in
  let* sn := rd ns s in
  let* front := pointee (next sn) in
  let* back := pointee (prev sn) in
  retrieve_nodes (with_nodes p ns) front back.

(** The same, for the list created last: its sentinel leaves the table. *)
Definition delete_list (p : node_pool V) (s : nat) : M A (node_pool V) :=
  let* p := destroy_list p s in
  assert (S s =? length (nodes p)) ;;
  ret (with_nodes p (firstn s (nodes p))).

(** detail/fixed_size_list.h:825-834. *)
Definition link_node_before ns (node pos : nat) : M A (list (list_node V)) :=
  let* q := rd ns pos in
  let* ns := set_prev ns node (prev q) in
  let* ns := set_next ns node (Some pos) in
  let* before := pointee (prev q) in
  let* ns := set_next ns before (Some node) in
  set_prev ns pos (Some node).

(** detail/fixed_size_list.h:788-813 (and insert, push_back and push_front, lines 543-593, which call it). *)
Definition insert_node (p : node_pool V) (pos : nat) (v : V) : M A (nat * node_pool V) :=
  let* (new_node, p) := next_free_node p in
  let* ns := set_value (nodes p) new_node (Val v) in
  let* ns := link_node_before ns new_node pos in
  ret (new_node, with_nodes p ns).

(** detail/fixed_size_list.h:320-325: [++it]. *)
Definition list_next (p : node_pool V) (it : nat) : M A nat := let* n := rd (nodes p) it in pointee (next n).

(** detail/fixed_size_list.h:513-525: [begin()]; [end()] is the sentinel. *)
Definition list_begin (p : node_pool V) (s : nat) : M A nat := list_next p s.

(** detail/fixed_size_list.h:304-309: [*it]. *)
Definition list_deref (p : node_pool V) (it : nat) : M A V :=
  let* n := rd (nodes p) it in
  match value n with Val v => ret v | _ => ub end.

(** std::next on a list iterator. *)
Definition list_advance (p : node_pool V) (it n : nat) : M A nat :=
  loop (S n) (fun '(it, n) =>
    if n =? 0 then ret (inr it) else
    let* it := list_next p it in ret (inl (it, n - 1))) (it, n).

(** std::distance on list iterators. *)
Definition list_distance (p : node_pool V) (first last : nat) : M A nat :=
  loop (S (length (nodes p))) (fun '(first, n) =>
    if first =? last then ret (inr n) else
    let* first := list_next p first in ret (inl (first, S n))) (first, 0).
End Model.
