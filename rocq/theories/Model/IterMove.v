(** utility/iter_move.h: which iter_move and iter_swap a call runs (with the using-declaration the library puts before every call), before C++20, where
    std::reverse_iterator and std::move_iterator have functions of their own.

    Simplifications: a dedicated function accepts its own iterator type and no other; dereferencing an iterator that is not a std::move_iterator gives an
    lvalue. *)
From Coq Require Import ZArith Bool.
Open Scope Z_scope.

(** An iterator type: whether argument-dependent lookup finds an iter_move, an iter_swap, and looks into namespace std (as for the iterators of the
    standard containers, and for class templates with an argument from std). *)
Record kind := Kind { dedicated_move : bool; dedicated_swap : bool; in_std : bool }.
Inductive type := Base (k : kind) | Reverse (t : type) | Move (t : type).

(** An iterator is given by its type and the position of the innermost iterator; [forward t]: what ++ adds to that position. *)
Fixpoint forward (t : type) : Z :=
  match t with Base _ => 1 | Reverse t => - forward t | Move t => forward t end.
Definition prev (t : type) (z : Z) : Z := z - forward t.
(** The element that the iterator designates ([reverse.iter.elem], [move.iter.elem]), and whether dereferencing gives an rvalue. *)
Fixpoint element (t : type) (z : Z) : Z :=
  match t with Base _ => z | Reverse t => element t (prev t z) | Move t => element t z end.
Fixpoint gives_rvalue (t : type) : bool :=
  match t with Base _ => false | Reverse t => gives_rvalue t | Move _ => true end.

(** iter_move.h:26-60: what lookup finds from namespace detail, that is, by argument-dependent lookup only; there is no std::iter_move, but there is a
    std::iter_swap, which takes anything. *)
Definition adl_move (t : type) : bool :=
  match t with Base k => dedicated_move k | _ => false end.
Definition adl_swap (t : type) : bool :=
  match t with Base k => dedicated_swap k || in_std k | _ => true end.
Definition has_iter_move (t : type) : bool :=
  adl_move t || match t with Base _ => false | Reverse t | Move t => adl_move t end.
Definition has_iter_swap (t : type) : bool :=
  adl_swap t || match t with Base _ => false | Reverse t | Move t => adl_swap t end.

(** The overloads that are declared before the call: the generic one, those for reverse_iterator, those for move_iterator. *)
Inductive scope := Generic | UpToReverse | All.

(** An element is moved from by its dedicated iter_move, or by std::move( *it). *)
Inductive moved := ByIterMove (z : Z) | ByStdMove (z : Z).

(** iter_move.h:78-84, 123-133 and 150-160: an overload for the adapters is more specialized than the generic one. *)
Fixpoint iter_move (sc : scope) (t : type) (z : Z) : moved :=
  match t with
  | Base k => if dedicated_move k then ByIterMove z else ByStdMove z
  | Reverse t' =>
      match sc with
      | Generic => ByStdMove (element t z)
      | _ => if has_iter_move t then ByStdMove (element t z) else iter_move UpToReverse t' (prev t' z)
      end
  | Move t' =>
      match sc with
      | All => if has_iter_move t then ByStdMove (element t z) else iter_move All t' z
      | _ => ByStdMove (element t z)
      end
  end.

(** What swaps the elements: the dedicated iter_swap, three moves with iter_move, or swap( *lhs, *rhs). *)
Inductive swapped := ByIterSwap (x y : Z) | ByMoves (tmp other : moved) | BySwap (x y : Z) | DoesNotCompile.

(** swap( *lhs, *rhs) takes lvalues. *)
Definition swap (t : type) (x y : Z) : swapped :=
  if gives_rvalue t then DoesNotCompile else BySwap (element t x) (element t y).

(** iter_move.h:86-118, 135-145 and 162-172; std::iter_swap ([alg.swap]) is swap( *lhs, *rhs). *)
Fixpoint iter_swap (sc : scope) (t : type) (x y : Z) : swapped :=
  if has_iter_swap t then
    match t with
    | Base k => if dedicated_swap k then ByIterSwap x y else swap t x y
    | _ => swap t x y
    end
  else
    match t, sc with
    | Reverse t', (UpToReverse | All) => iter_swap UpToReverse t' (prev t' x) (prev t' y)
    | Move t', All => iter_swap All t' x y
    | _, _ => if has_iter_move t then ByMoves (iter_move Generic t x) (iter_move Generic t y) else swap t x y
    end.
