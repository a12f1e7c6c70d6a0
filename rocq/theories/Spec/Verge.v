(** A pattern that vergesort mishandles. *)
From Coq Require Import List Arith.
From Verif Require Import Spec.Order Lang.Mem.
Import ListNotations.

(** [b] is an ascending run that [x] does not extend, because [x] is less than its last element;
    or [b] is a descending run (no element is less than a later one, and some element is greater than a later one) and [x] is not less
    than its last element. *)
Definition ends_before {A : Type} (lt : A -> A -> bool) (b : list A) (x : A) : Prop :=
  exists b' z, b = b' ++ [z] /\
    (sorted lt b /\ lt x z = true \/ sorted (fun x y => lt y x) b /\ ~ sorted lt b /\ lt x z = false).

(** The same, if [x] comes before the run [c]. *)
Definition starts_after {A : Type} (lt : A -> A -> bool) (x : A) (c : list A) : Prop :=
  exists y c', c = y :: c' /\
    (sorted lt c /\ lt y x = true \/ sorted (fun x y => lt y x) c /\ ~ sorted lt c /\ lt y x = false).

(** [l] has an element alone between two runs of at least [n] elements. *)
Definition has_isolated_element {A : Type} (lt : A -> A -> bool) (n : nat) (l : list A) : Prop :=
  exists a b x c d, l = a ++ b ++ x :: c ++ d /\ n <= length b /\ n <= length c /\ ends_before lt b x /\ starts_after lt x c.

(** The program sorts the collections that satisfy [P]; see Spec/Sorts.v. *)
Definition sorts_when {A : Type} (P : list A -> Prop) (lt : A -> A -> bool) (prog : range_prog A) : Prop :=
  forall pre xs post, P xs -> exists ys,
    prog (length pre) (length pre + length xs) (pre ++ map Val xs ++ post)
      = Ok tt (pre ++ map Val ys ++ post)
    /\ is_sorting_of lt xs ys.

Definition sorts_stably_when {A : Type} (P : list A -> Prop) (lt : A -> A -> bool) (prog : range_prog A) : Prop :=
  forall pre xs post, P xs -> exists ys,
    prog (length pre) (length pre + length xs) (pre ++ map Val xs ++ post)
      = Ok tt (pre ++ map Val ys ++ post)
    /\ is_stable_sorting_of lt xs ys.
