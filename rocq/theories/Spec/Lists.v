(** What it means for a program on a list to sort it. *)
From Coq Require Import List Arith Permutation.
From Verif Require Import Spec.Order Lang.Lists.
Import ListNotations.

(** Compare nodes by their values. *)
Definition by_value {A : Type} (lt : A -> A -> bool) : node A -> node A -> bool := fun x y => lt (snd x) (snd y).

(** Run on a list of distinct nodes, the program returns normally; the list then has the same nodes, with the same values, sorted. *)
Definition sorts_list {A : Type} (lt : A -> A -> bool) (prog : list (node A) -> out (list (node A))) : Prop :=
  forall l, NoDup (map fst l) -> exists l', prog l = Done l' /\ is_sorting_of (by_value lt) l l'.

Definition sorts_list_stably {A : Type} (lt : A -> A -> bool) (prog : list (node A) -> out (list (node A))) : Prop :=
  forall l, NoDup (map fst l) -> exists l', prog l = Done l' /\ is_stable_sorting_of (by_value lt) l l'.

(** Equivalent elements end in the reverse of the order they had. *)
Definition sorts_list_reversing_ties {A : Type} (lt : A -> A -> bool) (prog : list (node A) -> out (list (node A))) : Prop :=
  forall l, NoDup (map fst l) -> exists l', prog l = Done l' /\ is_sorting_of (by_value lt) l l' /\ same_order_in_classes (by_value lt) (rev l) l'.
