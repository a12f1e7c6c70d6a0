(** C21: spin_sorter. *)
From Coq Require Import List Arith Permutation Lia Bool.
From Verif Require Import Spec.Order Lang.Mem Spec.Sorts Spec.Verge Spec.Spin Model.Spin Proofs.Examples Proofs.Wp Proofs.Spin Proofs.SpinTrap.
Import ListNotations.

(** The full claim would be [sorts_stably], without the condition; it is false, as the next two theorems show. *)
Theorem C21_spin_sorter_sorts_stably_partial :
  forall (A T : Type) (comp : T -> T -> bool) (proj : A -> T), strict_weak_order comp ->
    sorts_stably_when (fun xs => ~ swapped_halves (by_proj comp proj) xs) (by_proj comp proj) (spin_sorter comp proj).
Proof. intros A T comp proj HC. now apply spin_sorts_stably_when. Qed.
Print Assumptions C21_spin_sorter_sorts_stably_partial.

(** Every collection that the condition excludes is one on which spin_sorter has undefined behavior. *)
Theorem C21_spin_sorter_swapped_halves_undefined :
  forall (A T : Type) (comp : T -> T -> bool) (proj : A -> T) (pre : mem A) (xs : list A) (post : mem A), strict_weak_order comp ->
    swapped_halves (by_proj comp proj) xs ->
    spin_sorter comp proj (length pre) (length pre + length xs) (pre ++ map Val xs ++ post) = UB.
Proof. intros A T comp proj pre xs post HC. now apply spin_trap. Qed.
Print Assumptions C21_spin_sorter_swapped_halves_undefined.

Theorem C21_spin_sorter_sorts_stably_refuted :
  ~ (forall (A T : Type) (comp : T -> T -> bool) (proj : A -> T), strict_weak_order comp ->
       sorts_stably (by_proj comp proj) (spin_sorter comp proj)).
Proof.
  intros H. specialize (H nat nat Nat.ltb (fun x => x) nat_ltb_swo [] (seq 72 73 ++ seq 0 72) []) as (ys & E & _).
  rewrite (C21_spin_sorter_swapped_halves_undefined nat nat Nat.ltb (fun x => x) [] (seq 72 73 ++ seq 0 72) [] nat_ltb_swo) in E; [discriminate|].
  replace (length (seq 72 73 ++ seq 0 72)) with 145 by reflexivity.
  split; [reflexivity|]. replace (length (seq 72 73 ++ seq 0 72)) with (length (seq 72 73) + 72) by reflexivity. split; [left; rewrite seq_length; lia|].
  replace ((length (seq 72 73) + 72 + 1) / 2) with (length (seq 72 73)) by reflexivity. rewrite firstn_app, skipn_app, firstn_all, skipn_all, Nat.sub_diag, app_nil_r. cbn [skipn app].
  intros x y Hx Hy. apply in_seq in Hx, Hy. apply Nat.ltb_lt. lia.
Qed.
Print Assumptions C21_spin_sorter_sorts_stably_refuted.

(** 73 elements, all of whose keys are equal up to the parity, are sorted stably; 75 elements in descending order are sorted. *)
Example C21_case :
  strict_weak_order Nat.ltb /\ ~ swapped_halves (by_proj Nat.ltb (fun x : nat => x mod 2)) (seq 0 73) /\ ~ swapped_halves (by_proj Nat.ltb (fun x : nat => x)) (rev (seq 0 75)) /\
  spin_sorter Nat.ltb (fun x => x mod 2) 1 74 (map Val (99 :: seq 0 73 ++ [50])) =
    Ok tt (map Val (99 :: (map (fun i => 2 * i) (seq 0 37) ++ map (fun i => S (2 * i)) (seq 0 36)) ++ [50])) /\
  spin_sorter Nat.ltb (fun x => x) 1 76 (map Val (99 :: rev (seq 0 75) ++ [50])) = Ok tt (map Val (99 :: seq 0 75 ++ [50])).
Proof.
  split; [apply nat_ltb_swo|]. split; [|split]; [..|split; vm_compute; reflexivity].
  - intros (_ & H & _). rewrite seq_length in H. lia.
  - intros (_ & H & _). rewrite rev_length, seq_length in H. lia.
Qed.
