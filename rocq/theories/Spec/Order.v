(** Model-independent specification: orders, sortedness, stability.

    Nothing here refers to the model of the code.  [lt x y = true] reads
    "x compares less than y".  *)
From Coq Require Import List Bool Arith Permutation.
Import ListNotations.

(** What C++ calls a strict weak ordering: irreflexive, transitive, and
    "not less either way" is transitive. *)
Record strict_weak_order {T : Type} (lt : T -> T -> bool) : Prop := {
  swo_irrefl : forall x, lt x x = false;
  swo_trans  : forall x y z, lt x y = true -> lt y z = true -> lt x z = true;
  swo_incomp : forall x y z,
      lt x y = false -> lt y x = false ->
      lt y z = false -> lt z y = false ->
      lt x z = false /\ lt z x = false
}.

(** Comparing through a projection. *)
Definition by_proj {A T : Type} (comp : T -> T -> bool) (proj : A -> T)
  : A -> A -> bool := fun x y => comp (proj x) (proj y).

(** [l] is sorted: no element compares less than an earlier one. *)
Definition sorted {A : Type} (lt : A -> A -> bool) (l : list A) : Prop :=
  forall i j x y, i < j ->
    nth_error l i = Some x -> nth_error l j = Some y -> lt y x = false.

(** Equivalence under [lt]. *)
Definition equivalent {A : Type} (lt : A -> A -> bool) (x y : A) : bool :=
  negb (lt x y) && negb (lt y x).

(** [l'] keeps the elements of every equivalence class in the order in
    which [l] has them. *)
Definition same_order_in_classes {A : Type} (lt : A -> A -> bool)
    (l l' : list A) : Prop :=
  forall x, filter (equivalent lt x) l' = filter (equivalent lt x) l.

(** [l'] is the result of sorting [l]. *)
Definition is_sorting_of {A : Type} (lt : A -> A -> bool) (l l' : list A) : Prop :=
  Permutation l l' /\ sorted lt l'.

(** [l'] is the result of sorting [l] stably. *)
Definition is_stable_sorting_of {A : Type} (lt : A -> A -> bool) (l l' : list A) : Prop :=
  Permutation l l' /\ sorted lt l' /\ same_order_in_classes lt l l'.
