(** C20: merge_insertion_sorter; C57 for it. *)
From Coq Require Import List Arith Permutation Lia Bool.
From Verif Require Import Spec.Order Lang.Mem Spec.Sorts Spec.Comparisons Model.MergeInsertion Proofs.Examples Proofs.MergeInsertion Proofs.MergeInsertionCase.
Import ListNotations.

Theorem C20_merge_insertion_sorter_sorts :
  forall (A T : Type) (comp : T -> T -> bool) (proj : A -> T),
    strict_weak_order comp -> sorts (by_proj comp proj) (merge_insertion_sorter comp proj).
Proof. intros. now apply merge_insertion_sorts. Qed.
Print Assumptions C20_merge_insertion_sorter_sorts.

(** Five levels, with a stray element on some of them and two batches of insertions on the first. *)
Definition C20_input : list nat := [9; 3; 7; 1; 8; 12; 10; 20; 15; 18; 5; 3; 3; 0; 6; 2; 11].
Example C20_case :
  strict_weak_order Nat.ltb /\
  merge_insertion_sorter Nat.ltb (fun x => x) 1 18 (map Val (99 :: C20_input ++ [50])) =
    Ok tt (map Val (99 :: [0; 1; 2; 3; 3; 3; 5; 6; 7; 8; 9; 10; 11; 12; 15; 18; 20] ++ [50])).
Proof. split; [apply nat_ltb_swo|vm_compute; reflexivity]. Qed.

Theorem C57_merge_insertion_sorter_permutes :
  forall (A T : Type) (comp : T -> T -> bool) (proj : A -> T), permutes (merge_insertion_sorter comp proj).
Proof. intros. apply merge_insertion_permutes. Qed.
Print Assumptions C57_merge_insertion_sorter_permutes.

Example C57_merge_insertion_case :
  ~ strict_weak_order bad_comp /\
  exists ys, merge_insertion_sorter bad_comp (fun x => x) 1 7 (map Val [99; 4; 2; 6; 1; 3; 5; 50]) = Ok tt (map Val (99 :: ys ++ [50])).
Proof.
  split. { intros [H _ _]. specialize (H 0). discriminate. }
  destruct (merge_insertion_permutes bad_comp (fun x => x) [Val 99] [4; 2; 6; 1; 3; 5] [Val 50]) as (ys & E & _).
  exists ys. cbn [map app length Nat.add] in *. rewrite map_app. exact E.
Qed.

(** The Ford-Johnson algorithm, which docs/Sorters.md says is implemented, sorts 9 elements with at most 19 comparisons.  The code needs
    20 of them on some collections. *)
Theorem C20_merge_insertion_comparisons_refuted :
  ~ (forall xs : list nat, length xs = 9 -> exists asked, length asked <= 19 /\
       decided_by (fun comp => merge_insertion_sorter comp (fun x => x) 0 9 (map Val xs)) Nat.ltb asked).
Proof. exact nineteen_comparisons_refuted. Qed.
Print Assumptions C20_merge_insertion_comparisons_refuted.

(** The reason: the sizes of the batches of insertions are not the differences of successive Jacobsthal numbers, as the comment of
    merge_insertion_sort.h:312-332 says: the second one is 4 instead of 2. *)
Theorem C20_insertion_batches_refuted :
  ~ (forall n, snd (Nat.iter n next_batch first_batch) = jacobsthal (n + 3) - jacobsthal (n + 2)).
Proof. intros H. specialize (H 1). vm_compute in H. discriminate. Qed.
Print Assumptions C20_insertion_batches_refuted.

(** From the second on, their sizes are four times the Jacobsthal numbers. *)
Theorem C20_insertion_batches :
  forall n, snd (Nat.iter (S n) next_batch first_batch) = 4 * jacobsthal (S n).
Proof. exact insertion_batches. Qed.
Print Assumptions C20_insertion_batches.

Example C20_batches_case : map (fun n => snd (Nat.iter n next_batch first_batch)) [0; 1; 2; 3; 4; 5] = [2; 4; 4; 12; 20; 44].
Proof. reflexivity. Qed.
