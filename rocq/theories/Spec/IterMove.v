(** What is expected of iter_move and iter_swap: the documentation, and [P0022] for the iterator adapters. *)
From Coq Require Import ZArith Bool.
From Verif Require Import Model.IterMove.

(** The innermost iterator type. *)
Fixpoint innermost (t : type) : kind :=
  match t with Base k => k | Reverse t | Move t => innermost t end.
Definition adapted (t : type) : Prop := forall k, t <> Base k.

(** The adapters forward to the functions of the iterator they adapt. *)
Definition expected_move (t : type) (z : Z) : moved :=
  if dedicated_move (innermost t) then ByIterMove (element t z) else ByStdMove (element t z).
Definition expected_swap (t : type) (x y : Z) : swapped :=
  let k := innermost t in
  if dedicated_swap k then ByIterSwap (element t x) (element t y)
  else if dedicated_move k then ByMoves (expected_move t x) (expected_move t y)
  else BySwap (element t x) (element t y).

(** The number of reverse_iterators in a type. *)
Fixpoint reversals (t : type) : nat :=
  match t with Base _ => 0 | Reverse t => S (reversals t) | Move t => reversals t end.

(** There is a move_iterator somewhere in the type. *)
Inductive contains_move : type -> Prop :=
| Here t : contains_move (Move t)
| Below_reverse t : contains_move t -> contains_move (Reverse t).
