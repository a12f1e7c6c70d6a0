(** C05: poplar_sorter; C57 for poplar_sorter. *)
From Coq Require Import List Arith Permutation Lia Bool.
From Verif Require Import Spec.Order Lang.Mem Spec.Sorts Model.Poplar Proofs.OrderLib Proofs.Wp Proofs.Examples Proofs.Quick Proofs.Poplar.
Import ListNotations.

Theorem C05_poplar_sorter_sorts :
  forall (A T : Type) (comp : T -> T -> bool) (proj : A -> T),
    strict_weak_order comp -> sorts (by_proj comp proj) (poplar_sorter comp proj).
Proof. intros. apply sorts_index_sorts; auto. apply poplar_sorter_wp. Qed.
Print Assumptions C05_poplar_sorter_sorts.

(** 40 elements: a poplar of 31, one of 7 and two of 1. *)
Definition C05_input : list nat := map (fun i => (i * 17) mod 41) (seq 1 40).
Example C05_case :
  strict_weak_order Nat.ltb /\
  poplar_sorter Nat.ltb (fun x => x) 1 41 (map Val (99 :: C05_input ++ [50])) = Ok tt (map Val (99 :: seq 1 40 ++ [50])).
Proof. split; [apply nat_ltb_swo|vm_compute; reflexivity]. Qed.

Theorem C57_poplar_sorter_permutes :
  forall (A T : Type) (comp : T -> T -> bool) (proj : A -> T), permutes (poplar_sorter comp proj).
Proof. intros. eapply sorts_index_permutes. apply poplar_sorter_wp. Qed.
Print Assumptions C57_poplar_sorter_permutes.
