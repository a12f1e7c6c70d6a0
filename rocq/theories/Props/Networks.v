(** C26, C27, C28 and the network part of C57. *)
From Coq Require Import List Arith.
From Verif Require Import Spec.Order Lang.Mem Spec.Sorts Model.Networks
  Proofs.NetLib Proofs.NetGen Proofs.NetOddEven Proofs.Networks Proofs.Examples.
Import ListNotations.

(** ** C26. Sizes 0 to 32: the domain declared by fixed_sorter_traits<sorting_network_sorter>. *)
Theorem C26_sorting_network_sorter_sorts :
  forall (A T : Type) (comp : T -> T -> bool) (proj : A -> T) (n : nat),
    strict_weak_order comp -> n <= 32 ->
    sorts_size n (by_proj comp proj) (sorting_network_sorter comp proj n).
Proof.
  intros. apply network_sorter_sorts; auto.
  - apply Nat.le_trans with 32; auto. do 32 apply le_S. apply le_n.
  - apply table_small; auto.
Qed.
Print Assumptions C26_sorting_network_sorter_sorts.

Theorem C26_index_pairs_sort :
  forall (A T : Type) (comp : T -> T -> bool) (proj : A -> T) (n : nat),
    strict_weak_order comp -> n <= 32 ->
    sorts_size n (by_proj comp proj)
      (fun first _ => swap_index_pairs comp proj first (sorting_network_index_pairs n)).
Proof.
  intros. apply network_pairs_sorts; auto.
  - apply Nat.le_trans with 32; auto. do 32 apply le_S. apply le_n.
  - apply table_small; auto.
Qed.
Print Assumptions C26_index_pairs_sort.

(** The full claim goes to 64. Missing here: 36 to 44, 52 and 64. *)
Theorem C26_sorting_network_sorter_large_partial :
  forall (A T : Type) (comp : T -> T -> bool) (proj : A -> T) (n : nat),
    strict_weak_order comp ->
    In n [33; 34; 35; 45; 46; 47; 48; 49; 50; 51; 53; 54; 55; 56; 57; 58; 59; 60; 61; 62; 63] ->
    sorts_size n (by_proj comp proj) (sorting_network_sorter comp proj n) /\
    sorts_size n (by_proj comp proj)
      (fun first _ => swap_index_pairs comp proj first (sorting_network_index_pairs n)).
Proof.
  intros A T comp proj n HC Hn.
  assert (n <= 64) as Hb.
  { apply Nat.leb_le. repeat (destruct Hn as [<-|Hn]; [reflexivity|]). destruct Hn. }
  split; [apply network_sorter_sorts|apply network_pairs_sorts]; auto; apply table_large; auto.
Qed.
Print Assumptions C26_sorting_network_sorter_large_partial.

Theorem C26_index_pairs_in_bounds :
  forall n : nat, n <= 64 -> in_bounds n (sorting_network_index_pairs n).
Proof.
  intros n Hn. unfold sorting_network_index_pairs. rewrite table_pairs. apply table_valid. auto.
Qed.
Print Assumptions C26_index_pairs_in_bounds.

Example C26_case :
  sorting_network_sorter Nat.ltb (fun x : nat => x) 5 1 6 (map Val [9; 4; 2; 5; 2; 1; 0])
    = Ok tt (map Val [9; 1; 2; 2; 4; 5; 0]).
Proof. vm_compute. reflexivity. Qed.

(** ** C27 *)
Theorem C27_odd_even_merge_network_sorter_sorts :
  forall (A T : Type) (comp : T -> T -> bool) (proj : A -> T) (n : nat),
    strict_weak_order comp -> n = 0 \/ (exists t, n = 2 ^ t) ->
    sorts_size n (by_proj comp proj) (odd_even_merge_network_sorter comp proj n).
Proof.
  intros A T comp proj n HC [-> | [t ->]]; unfold odd_even_merge_network_sorter.
  - change (odd_even_merge_index_pairs 0) with (Some (@nil index_pair)).
    apply network_sorts_size; auto; [constructor|]. intros v i j _ H. inversion H.
  - destruct (odd_even_merge_ok t) as (l & E & HV & HS). rewrite E. apply network_sorts_size; auto.
Qed.
Print Assumptions C27_odd_even_merge_network_sorter_sorts.

Theorem C27_index_pairs_in_bounds :
  forall t : nat, exists pairs,
    odd_even_merge_index_pairs (2 ^ t) = Some pairs /\ in_bounds (2 ^ t) pairs.
Proof. intros t. destruct (odd_even_merge_ok t) as (l & E & HV & HS). eauto. Qed.
Print Assumptions C27_index_pairs_in_bounds.

Example C27_case :
  odd_even_merge_network_sorter Nat.ltb (fun x : nat => x) 8 1 9 (map Val [9; 4; 2; 5; 2; 1; 7; 8; 3; 0])
    = Ok tt (map Val [9; 1; 2; 2; 3; 4; 5; 7; 8; 0]).
Proof. vm_compute. reflexivity. Qed.

(** ** C28 *)
Theorem C28_merge_exchange_network_sorter_sorts :
  forall (A T : Type) (comp : T -> T -> bool) (proj : A -> T) (n : nat),
    strict_weak_order comp ->
    sorts_size n (by_proj comp proj) (merge_exchange_network_sorter comp proj n).
Proof.
  intros A T comp proj n HC. unfold merge_exchange_network_sorter.
  destruct (merge_exchange_ok n) as (l & E & HV & HS). rewrite E. apply network_sorts_size; auto.
Qed.
Print Assumptions C28_merge_exchange_network_sorter_sorts.

Theorem C28_index_pairs_in_bounds :
  forall n : nat, exists pairs, merge_exchange_index_pairs n = Some pairs /\ in_bounds n pairs.
Proof. intros n. destruct (merge_exchange_ok n) as (l & E & HV & HS). eauto. Qed.
Print Assumptions C28_index_pairs_in_bounds.

Example C28_case :
  merge_exchange_network_sorter Nat.ltb (fun x : nat => x) 7 1 8 (map Val [9; 4; 2; 5; 2; 1; 7; 3; 0])
    = Ok tt (map Val [9; 1; 2; 2; 3; 4; 5; 7; 0]).
Proof. vm_compute. reflexivity. Qed.

(** ** C57: arbitrary comparators. *)
Theorem C57_sorting_network_sorter_permutes :
  forall (A T : Type) (comp : T -> T -> bool) (proj : A -> T) (n : nat), n <= 64 ->
    permutes_size n (sorting_network_sorter comp proj n).
Proof. intros. apply network_sorter_permutes. auto. Qed.
Print Assumptions C57_sorting_network_sorter_permutes.

Theorem C57_odd_even_merge_network_sorter_permutes :
  forall (A T : Type) (comp : T -> T -> bool) (proj : A -> T) (n : nat), n = 0 \/ (exists t, n = 2 ^ t) ->
    permutes_size n (odd_even_merge_network_sorter comp proj n).
Proof.
  intros A T comp proj n [-> | [t ->]]; unfold odd_even_merge_network_sorter.
  - change (odd_even_merge_index_pairs 0) with (Some (@nil index_pair)).
    apply network_permutes_size. constructor.
  - destruct (odd_even_merge_ok t) as (l & E & HV & HS). rewrite E. apply network_permutes_size; auto.
Qed.
Print Assumptions C57_odd_even_merge_network_sorter_permutes.

Theorem C57_merge_exchange_network_sorter_permutes :
  forall (A T : Type) (comp : T -> T -> bool) (proj : A -> T) (n : nat),
    permutes_size n (merge_exchange_network_sorter comp proj n).
Proof.
  intros A T comp proj n. unfold merge_exchange_network_sorter.
  destruct (merge_exchange_ok n) as (l & E & HV & HS). rewrite E. apply network_permutes_size; auto.
Qed.
Print Assumptions C57_merge_exchange_network_sorter_permutes.

(** With a comparator that always answers true. *)
Example C57_network_case : exists ys,
  sorting_network_sorter bad_comp (fun x : nat => x) 4 1 5 (map Val [9; 3; 1; 2; 5; 0]) = Ok tt (map Val (9 :: ys ++ [0])).
Proof. eexists [_; _; _; _]. vm_compute. reflexivity. Qed.
