(** C14: drop_merge_sorter and drop_merge_adapter; C15: split_sorter and split_adapter; C57 for the adapters. *)
From Coq Require Import List Arith Permutation Lia Bool.
From Verif Require Import Spec.Order Lang.Mem Spec.Sorts Model.Insertion Model.Rotate Model.Buffer Model.DropMerge Proofs.OrderLib Proofs.Wp Proofs.Examples Proofs.Insertion Proofs.Pdq Proofs.DropMerge.
Import ListNotations.

(** [triv]: is the type of the elements trivially copyable?  (The algorithm has two versions of several moves.) *)
Theorem C14_drop_merge_adapter_sorts :
  forall (A T : Type) (comp : T -> T -> bool) (proj : A -> T) (triv : bool) (inner : range_prog A),
    strict_weak_order comp -> sorts (by_proj comp proj) inner ->
    sorts (by_proj comp proj) (drop_merge_adapter comp proj triv inner).
Proof. intros. now apply drop_merge_sorts. Qed.
Print Assumptions C14_drop_merge_adapter_sorts.

Theorem C14_drop_merge_sorter_sorts :
  forall (A T : Type) (comp : T -> T -> bool) (proj : A -> T) (triv branchless : bool),
    strict_weak_order comp -> sorts (by_proj comp proj) (drop_merge_sorter comp proj triv true branchless).
Proof. intros. apply drop_merge_sorts; auto. now apply pdq_sorts. Qed.
Print Assumptions C14_drop_merge_sorter_sorts.

(** 30, 40 begin a run, then nine smaller elements in a row: the eight drops are undone. *)
Definition C14_input : list nat := [30; 40; 1; 2; 3; 4; 5; 6; 7; 8; 9; 10; 11; 12; 50; 13; 14; 60; 0; 15; 16; 17].
Example C14_case :
  strict_weak_order Nat.ltb /\
  (forall triv, drop_merge_sorter Nat.ltb (fun x => x) triv true true 1 23 (map Val (99 :: C14_input ++ [50])) =
   Ok tt (map Val (99 :: seq 0 18 ++ [30; 40; 50; 60] ++ [50]))).
Proof. split; [apply nat_ltb_swo|intros []; vm_compute; reflexivity]. Qed.

(** The sorter given to the adapter need not be pdq_sorter. *)
Example C14_adapter_case :
  strict_weak_order Nat.ltb /\ sorts (by_proj Nat.ltb (fun x : nat => x)) (insertion_sorter Nat.ltb (fun x => x)) /\
  (forall triv, drop_merge_adapter Nat.ltb (fun x => x) triv (insertion_sorter Nat.ltb (fun x => x)) 1 23 (map Val (99 :: C14_input ++ [50])) =
   Ok tt (map Val (99 :: seq 0 18 ++ [30; 40; 50; 60] ++ [50]))).
Proof.
  split; [apply nat_ltb_swo|]. split; [|intros []; vm_compute; reflexivity].
  intros pre xs post. destruct (insertion_sorts_stably Nat.ltb (fun x => x) nat_ltb_swo pre xs post) as (ys & E & HP & HS & _).
  exists ys. split; auto. split; auto.
Qed.

Theorem C57_drop_merge_adapter_permutes :
  forall (A T : Type) (comp : T -> T -> bool) (proj : A -> T) (triv : bool) (inner : range_prog A),
    permutes inner -> permutes (drop_merge_adapter comp proj triv inner).
Proof. intros. now apply drop_merge_permutes. Qed.
Print Assumptions C57_drop_merge_adapter_permutes.

(** [o] decides how much scratch memory the merge obtains. *)
Theorem C15_split_adapter_sorts :
  forall (A T : Type) (comp : T -> T -> bool) (proj : A -> T) (cat : category) (triv : bool) (o : oracle) (inner : range_prog A),
    strict_weak_order comp -> cat <> Forward -> sorts (by_proj comp proj) inner ->
    sorts (by_proj comp proj) (split_adapter comp proj cat triv o inner).
Proof. intros. now apply split_sorts. Qed.
Print Assumptions C15_split_adapter_sorts.

Theorem C15_split_sorter_sorts :
  forall (A T : Type) (comp : T -> T -> bool) (proj : A -> T) (triv : bool) (o : oracle) (branchless : bool),
    strict_weak_order comp -> sorts (by_proj comp proj) (split_sorter comp proj triv o true branchless).
Proof. intros. apply split_sorts; auto. { discriminate. } now apply pdq_sorts. Qed.
Print Assumptions C15_split_sorter_sorts.

Example C15_case :
  strict_weak_order Nat.ltb /\
  split_sorter Nat.ltb (fun x => x) true (fun _ => false) true true 1 23 (map Val (99 :: C14_input ++ [50])) =
   Ok tt (map Val (99 :: seq 0 18 ++ [30; 40; 50; 60] ++ [50])) /\
  split_sorter Nat.ltb (fun x => x) true (fun _ => true) true true 1 23 (map Val (99 :: C14_input ++ [50])) =
   Ok tt (map Val (99 :: seq 0 18 ++ [30; 40; 50; 60] ++ [50])).
Proof. split; [apply nat_ltb_swo|split; vm_compute; reflexivity]. Qed.

Theorem C57_split_adapter_permutes :
  forall (A T : Type) (comp : T -> T -> bool) (proj : A -> T) (cat : category) (triv : bool) (o : oracle) (inner : range_prog A),
    cat <> Forward -> permutes inner -> permutes (split_adapter comp proj cat triv o inner).
Proof. intros. now apply split_permutes. Qed.
Print Assumptions C57_split_adapter_permutes.

(** A comparator that is no order at all (it answers true always), and a sorter that does nothing: the elements are still all there. *)
Example C57_adapters_case :
  @permutes nat (fun _ _ => ret tt) /\
  drop_merge_adapter bad_comp (fun x => x) false (fun _ _ => ret tt) 0 22 (map Val C14_input) =
    Ok tt (map Val [30; 40; 1; 2; 3; 4; 5; 6; 7; 8; 9; 10; 11; 50; 13; 14; 60; 0; 15; 16; 17; 12]).
Proof. split; [|vm_compute; reflexivity]. intros pre xs post. exists xs. auto. Qed.
