(** C11: tim_sorter; C12: adaptive_shivers_sorter; C57 for both. *)
From Coq Require Import List Arith Permutation Lia Bool ZArith.
From Verif Require Import Spec.Order Lang.Mem Spec.Sorts Model.Tim Proofs.OrderLib Proofs.Wp Proofs.Examples Proofs.Stable Proofs.TimSort.
Import ListNotations.

(** [strict]: are the assertions "comparison function violates its general contract" checked? *)
Theorem C11_tim_sorter_sorts_stably :
  forall (A T : Type) (comp : T -> T -> bool) (proj : A -> T) (strict : bool),
    strict_weak_order comp -> sorts_stably (by_proj comp proj) (tim_sorter comp proj strict).
Proof.
  intros A T comp proj strict HC. apply stable_runs. apply tim_sort_base_runs; auto; [|apply tim_enough]. intros _. now apply swo_by_proj.
Qed.
Print Assumptions C11_tim_sorter_sorts_stably.

Theorem C12_adaptive_shivers_sorter_sorts_stably :
  forall (A T : Type) (comp : T -> T -> bool) (proj : A -> T) (strict : bool),
    strict_weak_order comp -> sorts_stably (by_proj comp proj) (adaptive_shivers_sorter comp proj strict).
Proof.
  intros A T comp proj strict HC. apply stable_runs. apply tim_sort_base_runs; auto; [|apply shivers_enough]. intros _. now apply swo_by_proj.
Qed.
Print Assumptions C12_adaptive_shivers_sorter_sorts_stably.

(** Every comparison function, the assertions about it being switched off. *)
Theorem C57_tim_sorter_permutes :
  forall (A T : Type) (comp : T -> T -> bool) (proj : A -> T), permutes (tim_sorter comp proj false).
Proof.
  intros A T comp proj. apply (permutes_runs_st comp proj). apply tim_sort_base_runs; try tauto; [discriminate|apply tim_enough].
Qed.
Print Assumptions C57_tim_sorter_permutes.

Theorem C57_adaptive_shivers_sorter_permutes :
  forall (A T : Type) (comp : T -> T -> bool) (proj : A -> T), permutes (adaptive_shivers_sorter comp proj false).
Proof.
  intros A T comp proj. apply (permutes_runs_st comp proj). apply tim_sort_base_runs; try tauto; [discriminate|apply shivers_enough].
Qed.
Print Assumptions C57_adaptive_shivers_sorter_permutes.

(** A hundred pairs compared by their first component: two ascending runs that overlap (merged by galloping) and a descending one. *)
Definition C11_keys : list nat := seq 0 35 ++ seq 10 45 ++ rev (seq 0 20).
Definition C11_input : list (nat * nat) := combine C11_keys (seq 0 100).
Definition C11_output : list (nat * nat) := flat_map (fun k => filter (fun p => fst p =? k) C11_input) (seq 0 55).
Example C11_case :
  strict_weak_order Nat.ltb /\
  tim_sorter Nat.ltb fst true 1 101 (map Val ((9, 9) :: C11_input ++ [(7, 7)])) = Ok tt (map Val ((9, 9) :: C11_output ++ [(7, 7)])).
Proof. split; [apply nat_ltb_swo|vm_compute; reflexivity]. Qed.
Example C12_case :
  strict_weak_order Nat.ltb /\
  adaptive_shivers_sorter Nat.ltb fst true 1 101 (map Val ((9, 9) :: C11_input ++ [(7, 7)])) = Ok tt (map Val ((9, 9) :: C11_output ++ [(7, 7)])).
Proof. split; [apply nat_ltb_swo|vm_compute; reflexivity]. Qed.

(** With an always-true comparison function the elements are still there, and nothing else is touched. *)
Example C57_tim_case :
  (exists ys, tim_sorter bad_comp (fun x : nat => x) false 1 71 (map Val (99 :: seq 0 70 ++ [98])) = Ok tt (map Val (99 :: ys ++ [98])) /\ ys <> seq 0 70) /\
  (exists ys, adaptive_shivers_sorter bad_comp (fun x : nat => x) false 1 71 (map Val (99 :: seq 0 70 ++ [98])) = Ok tt (map Val (99 :: ys ++ [98])) /\ ys <> seq 0 70).
Proof. split; eexists (rev (seq 0 70)); split; [vm_compute; reflexivity|discriminate|vm_compute; reflexivity|discriminate]. Qed.
