(** The overloads of swap_if for arithmetic types. *)
From Coq Require Import List Arith ZArith Bool.
From Verif Require Import Lang.Mem Model.Basic Model.Counting Model.NetworkTables Model.Networks.
Import ListNotations.

(** detail/swap_if.h:28-39: the values of the two variables afterwards. *)
Definition swap_if {A T : Type} (comp : T -> T -> bool) (proj : A -> T) (lhs rhs : A) : A * A :=
  if comp (proj rhs) (proj lhs) then (rhs, lhs) else (lhs, rhs).

Section Arithmetic.
Context {F : Type} (less : F -> F -> bool).
(** std::min(a, b) and std::max(a, b), with the built-in operator<. *)
Definition std_min (a b : F) : F := if less b a then b else a.
Definition std_max (a b : F) : F := if less a b then b else a.

(** detail/swap_if.h:58-65 (std::less<>) and 76-83 (std::greater<>). *)
Definition float_swap_if (greater : bool) (x y : F) : F * F :=
  let dx := x in
  let x := if greater then std_max x y else std_min x y in
  let y := if greater then std_min dx y else std_max dx y in
  (x, y).
End Arithmetic.

(** detail/swap_if.h:49-56 (std::less<>) and 67-74 (std::greater<>) on the type [t].  The operators ^ work on the promoted operands
    (an infinite two's complement here); the assignment of line 55 converts back. *)
Definition int_swap_if (t : int_type) (greater : bool) (x y : Z) : Z * Z :=
  let dx := x in
  let x := if greater then std_max Z.ltb x y else std_min Z.ltb x y in
  let y := convert t (Z.lxor y (convert (promoted t) (Z.lxor dx x))) in
  (x, y).

Section Networks.
Context {A : Type} (swap_if : A -> A -> A * A).
(** detail/swap_if.h:199-216 (the iterators have no custom iter_move nor iter_swap) with the given overload of swap_if. *)
Definition iter_swap_if_by (lhs rhs : nat) : M A unit :=
  let* x := get lhs in
  let* y := get rhs in
  let (x, y) := swap_if x y in
  put lhs x ;; put rhs y.
(** utility/sorting_networks.h:41-55. *)
Fixpoint swap_index_pairs_by (first : nat) (pairs : list index_pair) : M A unit :=
  match pairs with
  | [] => ret tt
  | (a, b) :: rest => iter_swap_if_by (first + a) (first + b) ;; swap_index_pairs_by first rest
  end.
(** fixed/sorting_network_sorter.h:35-46 and detail/sorting_network/sort2.h .. sort64.h. *)
Definition sorting_network_sorter_by (n : nat) : range_prog A :=
  if n <? 2 then empty_sorter else fun first _ => swap_index_pairs_by first (of_table (network_swaps n)).
(** fixed/merge_exchange_network_sorter.h:109-118. *)
Definition merge_exchange_network_sorter_by (n : nat) : range_prog A := fun first _ =>
  match merge_exchange_index_pairs n with
  | None => nofuel
  | Some pairs => swap_index_pairs_by first pairs
  end.
(** fixed/odd_even_merge_network_sorter.h:96-105. *)
Definition odd_even_merge_network_sorter_by (n : nat) : range_prog A := fun first _ =>
  match odd_even_merge_index_pairs n with
  | None => nofuel
  | Some pairs => swap_index_pairs_by first pairs
  end.
End Networks.
