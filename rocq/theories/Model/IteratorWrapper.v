(** detail/associate_iterator.h and detail/fake_category_iterator.h: the operators of the iterators that the adapters give to the sorters.

    Simplifications: both wrap a pointer (stable_adapter.h:108-109, schwartz_adapter.h:80-90, moves.h:83-86), here an integer; iter_move, iter_swap and the
    associations are in Model.Adapters. *)
From Coq Require Import List ZArith Bool.
From Verif Require Import Spec.IteratorOperations.
Import ListNotations.
Local Open Scope Z_scope.

Inductive wrapper := Associate | FakeCategory.
Record iterator := Wrap { it_ : Z }.

(** associate_iterator.h:185-190, fake_category_iterator.h:62-67 *)
Definition base (i : iterator) : Z := it_ i.
(** associate_iterator.h:195-207, fake_category_iterator.h:72-84 *)
Definition dereference (i : iterator) : Z := it_ i.
Definition arrow (i : iterator) : Z := dereference i.
(** The operators that change an iterator give it and their result: associate_iterator.h:212-238, fake_category_iterator.h:89-133. *)
Definition pre_increment (i : iterator) : iterator * iterator := let i := Wrap (it_ i + 1) in (i, i).
Definition pre_decrement (i : iterator) : iterator * iterator := let i := Wrap (it_ i - 1) in (i, i).
Definition add_assign (i : iterator) (n : Z) : iterator * iterator := let i := Wrap (it_ i + n) in (i, i).
Definition subtract_assign (i : iterator) (n : Z) : iterator * iterator := let i := Wrap (it_ i - n) in (i, i).
(** [None]: fake_category_iterator.h:96-102 and 111-117; associate_iterator has none of them. *)
Definition post_increment (w : wrapper) (i : iterator) : option (iterator * iterator) :=
  match w with FakeCategory => let res := i in Some (Wrap (it_ i + 1), res) | Associate => None end.
Definition post_decrement (w : wrapper) (i : iterator) : option (iterator * iterator) :=
  match w with FakeCategory => let res := i in Some (Wrap (it_ i - 1), res) | Associate => None end.
(** associate_iterator.h:243-248, fake_category_iterator.h:136-141 *)
Definition subscript (i : iterator) (pos : Z) : Z := it_ i + pos.
(** associate_iterator.h:253-296, fake_category_iterator.h:146-189 *)
Definition equal (a b : iterator) : bool := base a =? base b.
Definition not_equal (a b : iterator) : bool := negb (base a =? base b).
Definition less (a b : iterator) : bool := base a <? base b.
Definition less_equal (a b : iterator) : bool := base a <=? base b.
Definition greater (a b : iterator) : bool := base a >? base b.
Definition greater_equal (a b : iterator) : bool := base a >=? base b.
(** associate_iterator.h:301-330, fake_category_iterator.h:194-223: the iterator is a copy. *)
Definition plus (i : iterator) (n : Z) : iterator := fst (add_assign i n).
Definition plus_left (n : Z) (i : iterator) : iterator := fst (add_assign i n).
Definition minus (i : iterator) (n : Z) : iterator := fst (subtract_assign i n).
Definition difference (a b : iterator) : Z := base a - base b.

(** A program on variables of the type of the wrapper.  [None]: it does not compile. *)
Definition wrapped := nat -> iterator.
Definition assign (v : wrapped) (x : nat) (i : iterator) : wrapped := fun y => if Nat.eqb x y then i else v y.
Definition change (v : wrapped) (y x : nat) (r : iterator * iterator) : wrapped * observation := (assign (assign v x (fst r)) y (snd r), Nothing).
Definition run_one (w : wrapper) (i : instruction) (v : wrapped) : option (wrapped * observation) :=
  match i with
  | PreIncrement y x => Some (change v y x (pre_increment (v x)))
  | PostIncrement y x => match post_increment w (v x) with Some r => Some (change v y x r) | None => None end
  | PreDecrement y x => Some (change v y x (pre_decrement (v x)))
  | PostDecrement y x => match post_decrement w (v x) with Some r => Some (change v y x r) | None => None end
  | AddAssign y x n => Some (change v y x (add_assign (v x) n))
  | SubtractAssign y x n => Some (change v y x (subtract_assign (v x) n))
  | Plus y x n => Some (assign v y (plus (v x) n), Nothing)
  | PlusLeft y n x => Some (assign v y (plus_left n (v x)), Nothing)
  | Minus y x n => Some (assign v y (minus (v x) n), Nothing)
  | Difference x y => Some (v, Number (difference (v x) (v y)))
  | Dereference x => Some (v, Element (dereference (v x)))
  | Arrow x => Some (v, Element (arrow (v x)))
  | Subscript x n => Some (v, Element (subscript (v x) n))
  | Equal x y => Some (v, Boolean (equal (v x) (v y)))
  | NotEqual x y => Some (v, Boolean (not_equal (v x) (v y)))
  | Less x y => Some (v, Boolean (less (v x) (v y)))
  | LessEqual x y => Some (v, Boolean (less_equal (v x) (v y)))
  | Greater x y => Some (v, Boolean (greater (v x) (v y)))
  | GreaterEqual x y => Some (v, Boolean (greater_equal (v x) (v y)))
  end.
Fixpoint run (w : wrapper) (program : list instruction) (v : wrapped) : option (wrapped * list observation) :=
  match program with
  | [] => Some (v, [])
  | i :: program =>
      match run_one w i v with
      | Some (v, o) => match run w program v with Some (v, l) => Some (v, o :: l) | None => None end
      | None => None
      end
  end.
