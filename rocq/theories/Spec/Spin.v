(** The collections on which spinsort reads past the end: see DESIGN.md, section 7. *)
From Coq Require Import List Arith.
Import ListNotations.

(** [n] is odd, between 145 and 287 or between 577 and 1023, and every element of the second half is less than every element of the first half,
    which is one element longer. *)
Definition swapped_halves {A : Type} (lt : A -> A -> bool) (xs : list A) : Prop :=
  Nat.odd (length xs) = true /\
  (145 <= length xs <= 287 \/ 577 <= length xs <= 1023) /\
  forall x y, In x (firstn ((length xs + 1) / 2) xs) -> In y (skipn ((length xs + 1) / 2) xs) -> lt y x = true.
