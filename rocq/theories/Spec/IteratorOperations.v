(** What a program can do with random-access iterators held in variables, and what the operations of the standard give for pointers
    ([random.access.iterators]); positions are integers, out-of-range arithmetic is left out. *)
From Coq Require Import List ZArith Bool.
Import ListNotations.
Local Open Scope Z_scope.

(** [x], [y]: numbers of variables. *)
Inductive instruction :=
| PreIncrement (y x : nat)            (** y = ++x *)
| PostIncrement (y x : nat)           (** y = x++ *)
| PreDecrement (y x : nat)
| PostDecrement (y x : nat)
| AddAssign (y x : nat) (n : Z)       (** y = (x += n) *)
| SubtractAssign (y x : nat) (n : Z)
| Plus (y x : nat) (n : Z)            (** y = x + n *)
| PlusLeft (y : nat) (n : Z) (x : nat) (** y = n + x *)
| Minus (y x : nat) (n : Z)
| Difference (x y : nat)              (** x - y, as the operations below, gives a result *)
| Dereference (x : nat)
| Arrow (x : nat)
| Subscript (x : nat) (n : Z)
| Equal (x y : nat)
| NotEqual (x y : nat)
| Less (x y : nat)
| LessEqual (x y : nat)
| Greater (x y : nat)
| GreaterEqual (x y : nat).

Inductive observation := Nothing | Number (n : Z) | Element (position : Z) | Boolean (b : bool).

Definition variables := nat -> Z.
Definition set (v : variables) (x : nat) (p : Z) : variables := fun y => if Nat.eqb x y then p else v y.

(** The effect on the variables. *)
Definition pointers_after (i : instruction) (v : variables) : variables :=
  match i with
  | PreIncrement y x => set (set v x (v x + 1)) y (v x + 1)
  | PostIncrement y x => set (set v x (v x + 1)) y (v x)
  | PreDecrement y x => set (set v x (v x - 1)) y (v x - 1)
  | PostDecrement y x => set (set v x (v x - 1)) y (v x)
  | AddAssign y x n => set (set v x (v x + n)) y (v x + n)
  | SubtractAssign y x n => set (set v x (v x - n)) y (v x - n)
  | Plus y x n | PlusLeft y n x => set v y (v x + n)
  | Minus y x n => set v y (v x - n)
  | _ => v
  end.
Definition observed (i : instruction) (v : variables) : observation :=
  match i with
  | Difference x y => Number (v x - v y)
  | Dereference x | Arrow x => Element (v x)
  | Subscript x n => Element (v x + n)
  | Equal x y => Boolean (v x =? v y)
  | NotEqual x y => Boolean (negb (v x =? v y))
  | Less x y => Boolean (v x <? v y)
  | LessEqual x y => Boolean (v x <=? v y)
  | Greater x y => Boolean (v y <? v x)
  | GreaterEqual x y => Boolean (v y <=? v x)
  | _ => Nothing
  end.
Fixpoint execute (program : list instruction) (v : variables) : variables * list observation :=
  match program with
  | [] => (v, [])
  | i :: program => let (w, l) := execute program (pointers_after i v) in (w, observed i v :: l)
  end.
