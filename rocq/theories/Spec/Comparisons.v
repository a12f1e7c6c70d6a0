(** Which answers of the comparison function a computation depends on. *)
From Coq Require Import List.
Import ListNotations.

(** The result of [run comp] is known from the answers of [comp] to the questions [asked].  A computation which calls its comparison
    function at most [k] times is decided by at most [k] answers: those it got. *)
Definition decided_by {T X : Type} (run : (T -> T -> bool) -> X) (comp : T -> T -> bool) (asked : list (T * T)) : Prop :=
  forall comp', (forall x y, In (x, y) asked -> comp' x y = comp x y) -> run comp' = run comp.

(** The Jacobsthal numbers (https://oeis.org/A001045). *)
Fixpoint jacobsthal (n : nat) : nat :=
  match n with
  | 0 => 0
  | S k => match k with 0 => 1 | S i => jacobsthal k + 2 * jacobsthal i end
  end.
