(** C29 and C30, and their part of C57. *)
From Coq Require Import List Arith.
From Verif Require Import Spec.Order Lang.Mem Spec.Sorts Model.Fixed
  Proofs.OrderLib Proofs.Wp Proofs.NetLib Proofs.Fixed Proofs.Examples.
Import ListNotations.

(** ** C29 *)
Theorem C29_low_comparisons_sorter_sorts :
  forall (A T : Type) (comp : T -> T -> bool) (proj : A -> T) (n : nat),
    strict_weak_order comp -> n <= 13 ->
    sorts_size n (by_proj comp proj) (low_comparisons_sorter comp proj n).
Proof.
  intros A T comp proj n HC Hn. apply sorts_size_intro. intros f m HF.
  eapply wp_mono; [apply (low_comparisons_ok comp proj n Hn f); auto|].
  intros x m' [HP HS]. split; auto. apply HS. apply swo_by_proj; auto.
Qed.
Print Assumptions C29_low_comparisons_sorter_sorts.

Example C29_case :
  low_comparisons_sorter Nat.ltb (fun x : nat => x) 9 1 10 (map Val [9; 4; 2; 5; 2; 1; 7; 8; 3; 6; 0])
    = Ok tt (map Val [9; 1; 2; 2; 3; 4; 5; 6; 7; 8; 0]).
Proof. vm_compute. reflexivity. Qed.

(** ** C30 *)
Theorem C30_low_moves_sorter_sorts :
  forall (A T : Type) (comp : T -> T -> bool) (proj : A -> T) (n : nat),
    strict_weak_order comp ->
    sorts_size n (by_proj comp proj) (low_moves_sorter comp proj n).
Proof.
  intros A T comp proj n HC. apply sorts_size_intro. intros f m HF.
  eapply wp_mono; [apply (low_moves_ok comp proj n f); auto|].
  intros x m' [HP HS]. split; auto. apply HS. apply swo_by_proj; auto.
Qed.
Print Assumptions C30_low_moves_sorter_sorts.

Example C30_case :
  low_moves_sorter Nat.ltb (fun x : nat => x) 7 1 8 (map Val [9; 4; 2; 5; 2; 1; 7; 3; 0])
    = Ok tt (map Val [9; 1; 2; 2; 3; 4; 5; 7; 0]).
Proof. vm_compute. reflexivity. Qed.

(** ** C57 *)
Theorem C57_low_comparisons_sorter_permutes :
  forall (A T : Type) (comp : T -> T -> bool) (proj : A -> T) (n : nat), n <= 13 ->
    permutes_size n (low_comparisons_sorter comp proj n).
Proof.
  intros A T comp proj n Hn. apply permutes_size_intro. intros f m HF.
  eapply wp_mono; [apply (low_comparisons_ok comp proj n Hn f); auto|]. intros x m' [HP HS]. auto.
Qed.
Print Assumptions C57_low_comparisons_sorter_permutes.

Theorem C57_low_moves_sorter_permutes :
  forall (A T : Type) (comp : T -> T -> bool) (proj : A -> T) (n : nat),
    permutes_size n (low_moves_sorter comp proj n).
Proof.
  intros A T comp proj n. apply permutes_size_intro. intros f m HF.
  eapply wp_mono; [apply (low_moves_ok comp proj n f); auto|]. intros x m' [HP HS]. auto.
Qed.
Print Assumptions C57_low_moves_sorter_permutes.

(** With a comparator that always answers true. *)
Example C57_low_moves_case : exists ys,
  low_moves_sorter bad_comp (fun x : nat => x) 6 1 7 (map Val [9; 3; 1; 2; 5; 4; 8; 0]) = Ok tt (map Val (9 :: ys ++ [0])).
Proof. eexists [_; _; _; _; _; _]. vm_compute. reflexivity. Qed.
