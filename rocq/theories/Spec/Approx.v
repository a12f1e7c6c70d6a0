(** Sorting up to equivalence: the elements may have been replaced with equivalent ones. *)
From Coq Require Import List Bool Permutation.
From Verif Require Import Spec.Order Lang.Mem.
Import ListNotations.

(** [ys] is sorted and holds, up to equivalence, the elements of [xs]. *)
Definition sorting_up_to_equivalence {A : Type} (lt : A -> A -> bool) (xs ys : list A) : Prop :=
  sorted lt ys /\ exists zs, Permutation xs zs /\ Forall2 (fun y z => equivalent lt y z = true) ys zs.

(** On every collection of [n] elements whose values satisfy [ok], the program returns normally, the result is related to the collection by [R], and the rest of the memory is unchanged. *)
Definition sorts_size_by {A : Type} (n : nat) (ok : list A -> Prop) (R : list A -> list A -> Prop) (prog : range_prog A) : Prop :=
  forall pre xs post, length xs = n -> ok xs -> exists ys,
    prog (length pre) (length pre + length xs) (pre ++ map Val xs ++ post) = Ok tt (pre ++ map Val ys ++ post) /\ R xs ys.
