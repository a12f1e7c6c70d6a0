(** C57: whatever the comparator does, the range ends up permuted, nothing else is touched and the call returns. *)
From Coq Require Import List Arith.
From Verif Require Import Spec.Order Lang.Mem Spec.Sorts
  Model.Insertion Model.Basic Model.Heap
  Proofs.Insertion Proofs.Basic Proofs.Heap Proofs.Examples.
Import ListNotations.

Theorem C57_insertion_sorter_permutes :
  forall (A T : Type) (comp : T -> T -> bool) (proj : A -> T), permutes (insertion_sorter comp proj).
Proof. intros. apply insertion_permutes. Qed.
Print Assumptions C57_insertion_sorter_permutes.

Theorem C57_selection_sorter_permutes :
  forall (A T : Type) (comp : T -> T -> bool) (proj : A -> T), permutes (selection_sorter comp proj).
Proof. intros. apply selection_permutes. Qed.
Print Assumptions C57_selection_sorter_permutes.

Theorem C57_heap_sorter_permutes :
  forall (A T : Type) (comp : T -> T -> bool) (proj : A -> T), permutes (heap_sorter comp proj).
Proof. intros. apply heap_permutes. Qed.
Print Assumptions C57_heap_sorter_permutes.

Theorem C57_d_ary_heap_sorter_permutes :
  forall (A T : Type) (comp : T -> T -> bool) (proj : A -> T) (D : nat), 1 <= D ->
    permutes (d_ary_heap_sorter comp proj D).
Proof. intros. apply d_ary_heap_permutes. assumption. Qed.
Print Assumptions C57_d_ary_heap_sorter_permutes.

(** With a comparator that always answers true. *)
Example C57_case : exists ys,
  heap_sorter bad_comp (fun x : nat => x) 1 5 (map Val [9; 3; 1; 2; 5; 0]) = Ok tt (map Val (9 :: ys ++ [0])).
Proof. eexists [_; _; _; _]. reflexivity. Qed.
