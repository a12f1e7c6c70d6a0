(** C18: cartesian_tree_sorter; C57 for it. *)
From Coq Require Import List Arith Permutation Lia Bool.
From Verif Require Import Spec.Order Lang.Mem Spec.Sorts Model.Heap Model.Cartesian Proofs.Examples Proofs.Cartesian.
Import ListNotations.

Theorem C18_cartesian_tree_sorter_sorts :
  forall (A T : Type) (comp : T -> T -> bool) (proj : A -> T),
    strict_weak_order comp -> sorts (by_proj comp proj) (cartesian_tree_sorter comp proj).
Proof. intros. now apply cartesian_sorts. Qed.
Print Assumptions C18_cartesian_tree_sorter_sorts.

(** The tree of this input has nodes with two children, nodes with one child on either side, and equivalent elements. *)
Definition C18_input : list nat := [9; 3; 7; 1; 8; 12; 10; 20; 15; 18; 5; 3; 3; 0; 6; 2].
Example C18_case :
  strict_weak_order Nat.ltb /\
  cartesian_tree_sorter Nat.ltb (fun x => x) 1 17 (map Val (99 :: C18_input ++ [50])) =
    Ok tt (map Val (99 :: [0; 1; 2; 3; 3; 3; 5; 6; 7; 8; 9; 10; 12; 15; 18; 20] ++ [50])).
Proof. split; [apply nat_ltb_swo|vm_compute; reflexivity]. Qed.

(** Popping the front does not depend on its value, which the algorithm has moved elsewhere. *)
Theorem C18_pop_heap_ignores_the_front :
  forall (A T : Type) (comp : T -> T -> bool) (proj : A -> T) (e e' : A) (q : list A), exists q',
    pop_heap comp proj 0 (length (e :: q)) (length (e :: q)) (map Val (e :: q)) = Ok tt (map Val (q' ++ [e])) /\
    pop_heap comp proj 0 (length (e' :: q)) (length (e' :: q)) (map Val (e' :: q)) = Ok tt (map Val (q' ++ [e'])).
Proof. intros. apply pop_heap_ignores_the_front. Qed.
Print Assumptions C18_pop_heap_ignores_the_front.

Example C18_front_case :
  pop_heap Nat.ltb (fun x => x) 0 6 6 (map Val [9; 7; 8; 1; 2; 5]) = Ok tt (map Val [8; 7; 5; 1; 2; 9]) /\
  pop_heap Nat.ltb (fun x => x) 0 6 6 (map Val [0; 7; 8; 1; 2; 5]) = Ok tt (map Val [8; 7; 5; 1; 2; 0]).
Proof. vm_compute. auto. Qed.

Theorem C57_cartesian_tree_sorter_permutes :
  forall (A T : Type) (comp : T -> T -> bool) (proj : A -> T), permutes (cartesian_tree_sorter comp proj).
Proof. intros. apply cartesian_permutes. Qed.
Print Assumptions C57_cartesian_tree_sorter_permutes.

Example C57_cartesian_case :
  ~ strict_weak_order bad_comp /\
  exists ys, cartesian_tree_sorter bad_comp (fun x => x) 1 17 (map Val (99 :: C18_input ++ [50])) = Ok tt (map Val (99 :: ys ++ [50])).
Proof.
  split. { intros [H _ _]. specialize (H 0). discriminate. }
  destruct (cartesian_permutes bad_comp (fun x => x) [Val 99] C18_input [Val 50]) as (ys & E & _).
  exists ys. rewrite map_cons, map_app. cbn [map app length Nat.add] in *. rewrite map_app. exact E.
Qed.
