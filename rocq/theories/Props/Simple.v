(** C01-C04: insertion, selection, heap and d-ary heap sorters. *)
From Coq Require Import List Arith.
From Verif Require Import Spec.Order Lang.Mem Spec.Sorts
  Model.Insertion Model.Basic Model.Heap
  Proofs.Insertion Proofs.Basic Proofs.Heap Proofs.Examples.
Import ListNotations.

Theorem C01_insertion_sorter_sorts_stably :
  forall (A T : Type) (comp : T -> T -> bool) (proj : A -> T),
    strict_weak_order comp -> sorts_stably (by_proj comp proj) (insertion_sorter comp proj).
Proof. intros. apply insertion_sorts_stably. assumption. Qed.
Print Assumptions C01_insertion_sorter_sorts_stably.

Example C01_case : strict_weak_order Nat.ltb /\
  insertion_sorter Nat.ltb fst 1 6
    (Val (9, 9) :: map Val [(3, 0); (1, 1); (3, 2); (0, 3); (1, 4)] ++ [Val (0, 0)])
  = Ok tt (Val (9, 9) :: map Val [(0, 3); (1, 1); (1, 4); (3, 0); (3, 2)] ++ [Val (0, 0)]).
Proof. split; [exact nat_ltb_swo|reflexivity]. Qed.

Theorem C02_selection_sorter_sorts :
  forall (A T : Type) (comp : T -> T -> bool) (proj : A -> T),
    strict_weak_order comp -> sorts (by_proj comp proj) (selection_sorter comp proj).
Proof. intros. apply selection_sorts. assumption. Qed.
Print Assumptions C02_selection_sorter_sorts.

Example C02_case : strict_weak_order Nat.ltb /\
  selection_sorter Nat.ltb fst 1 6
    (Val (9, 9) :: map Val [(3, 0); (1, 1); (3, 2); (0, 3); (1, 4)] ++ [Val (0, 0)])
  = Ok tt (Val (9, 9) :: map Val [(0, 3); (1, 1); (1, 4); (3, 0); (3, 2)] ++ [Val (0, 0)]).
Proof. split; [exact nat_ltb_swo|reflexivity]. Qed.

Theorem C03_heap_sorter_sorts :
  forall (A T : Type) (comp : T -> T -> bool) (proj : A -> T),
    strict_weak_order comp -> sorts (by_proj comp proj) (heap_sorter comp proj).
Proof. intros. apply heap_sorts. assumption. Qed.
Print Assumptions C03_heap_sorter_sorts.

Example C03_case : strict_weak_order Nat.ltb /\
  heap_sorter Nat.ltb fst 1 6
    (Val (9, 9) :: map Val [(3, 0); (1, 1); (4, 2); (0, 3); (2, 4)] ++ [Val (0, 0)])
  = Ok tt (Val (9, 9) :: map Val [(0, 3); (1, 1); (2, 4); (3, 0); (4, 2)] ++ [Val (0, 0)]).
Proof. split; [exact nat_ltb_swo|reflexivity]. Qed.

Theorem C04_d_ary_heap_sorter_sorts :
  forall (A T : Type) (comp : T -> T -> bool) (proj : A -> T) (D : nat),
    1 <= D ->
    strict_weak_order comp -> sorts (by_proj comp proj) (d_ary_heap_sorter comp proj D).
Proof. intros. apply d_ary_heap_sorts; assumption. Qed.
Print Assumptions C04_d_ary_heap_sorter_sorts.

Example C04_case : strict_weak_order Nat.ltb /\ 1 <= 3 /\
  d_ary_heap_sorter Nat.ltb fst 3 1 6
    (Val (9, 9) :: map Val [(3, 0); (1, 1); (4, 2); (0, 3); (2, 4)] ++ [Val (0, 0)])
  = Ok tt (Val (9, 9) :: map Val [(0, 3); (1, 1); (2, 4); (3, 0); (4, 2)] ++ [Val (0, 0)]).
Proof. split; [exact nat_ltb_swo|]. split; [auto|reflexivity]. Qed.
