(** C07, C57 (merge and bubble), C60: merge sort, in-place merging, rotation, binary searches. *)
From Coq Require Import List Arith Permutation.
From Verif Require Import Spec.Order Lang.Mem Spec.Sorts
  Model.Basic Model.Rotate Model.Search Model.Buffer Model.Merge
  Proofs.MergeProps Proofs.Examples.
Import ListNotations.

(** Every allocation attempt may succeed or fail. *)
Theorem C07_merge_sorter_sorts_stably :
  forall (A T : Type) (comp : T -> T -> bool) (proj : A -> T) (cat : category) (triv : bool) (o : oracle),
    cat = Bidirectional \/ cat = RandomAccess ->
    strict_weak_order comp -> sorts_stably (by_proj comp proj) (merge_sorter comp proj cat triv o).
Proof. exact @merge_sorter_sorts_stably. Qed.
Print Assumptions C07_merge_sorter_sorts_stably.

(** The forward-iterator version, when allocations all succeed or all fail. *)
Theorem C07_merge_sorter_forward_sorts_stably_partial :
  forall (A T : Type) (comp : T -> T -> bool) (proj : A -> T) (triv : bool) (o : oracle),
    (forall p, o p = true) \/ (forall p, o p = false) ->
    strict_weak_order comp -> sorts_stably (by_proj comp proj) (merge_sorter comp proj Forward triv o).
Proof. exact @merge_sorter_forward_sorts_stably. Qed.
Print Assumptions C07_merge_sorter_forward_sorts_stably_partial.

(** With a buffer shorter than requested the forward version reads outside of its range. *)
Theorem C07_merge_sorter_forward_every_memory_refuted :
  ~ (forall (A T : Type) (comp : T -> T -> bool) (proj : A -> T) (triv : bool) (o : oracle),
       strict_weak_order comp -> sorts_stably (by_proj comp proj) (merge_sorter comp proj Forward triv o)).
Proof.
  intros H. specialize (H nat nat Nat.ltb (fun x => x) true (fun p => match p with [2; 0] => false | _ => true end) nat_ltb_swo
    [] (seq 1 10 ++ seq 100 10 ++ [0] ++ seq 11 19) []).
  destruct H as (ys & E & _). vm_compute in E. discriminate E.
Qed.
Print Assumptions C07_merge_sorter_forward_every_memory_refuted.

Example C07_case : strict_weak_order Nat.ltb /\
  merge_sorter Nat.ltb fst Bidirectional true (fun p => match p with [2; 0] => false | _ => true end) 1 42
    (Val (9, 9) :: map Val (combine (seq 0 20 ++ seq 5 21) (seq 0 41)) ++ [Val (0, 0)])
  = Ok tt (Val (9, 9) :: map Val ([(0, 0); (1, 1); (2, 2); (3, 3); (4, 4)] ++
      flat_map (fun i => [(i, i); (i, i + 15)]) (seq 5 15) ++ combine (seq 20 6) (seq 35 6)) ++ [Val (0, 0)]).
Proof. split; [exact nat_ltb_swo|]. vm_compute. reflexivity. Qed.

Theorem C57_merge_sorter_permutes :
  forall (A T : Type) (comp : T -> T -> bool) (proj : A -> T) (cat : category) (triv : bool) (o : oracle),
    cat = Bidirectional \/ cat = RandomAccess \/ (cat = Forward /\ ((forall p, o p = true) \/ (forall p, o p = false))) ->
    permutes (merge_sorter comp proj cat triv o).
Proof. exact @merge_sorter_permutes. Qed.
Print Assumptions C57_merge_sorter_permutes.

Theorem C57_bubble_sort_permutes :
  forall (A T : Type) (comp : T -> T -> bool) (proj : A -> T),
    permutes (fun first last => bubble_sort comp proj first (last - first)).
Proof. exact @bubble_sort_permutes. Qed.
Print Assumptions C57_bubble_sort_permutes.

(** detail::rotate exchanges the two parts and returns the address of the former first element, with each of its
    four implementations. *)
Theorem C60_rotate_rotates :
  forall (A : Type) (cat : category) (triv : bool) (p r : list A) (pre post : mem A),
    rotate cat triv (length pre) (length pre + length p) (length pre + length p + length r)
      (pre ++ map Val (p ++ r) ++ post)
    = Ok (length pre + length r) (pre ++ map Val (r ++ p) ++ post).
Proof. exact @rotate_rotates. Qed.
Print Assumptions C60_rotate_rotates.

(** detail::inplace_merge merges two consecutive sorted parts stably, whatever memory it gets. *)
Theorem C60_inplace_merge_merges :
  forall (A T : Type) (comp : T -> T -> bool) (proj : A -> T) (cat : category) (triv : bool) (o : oracle)
      (l1 l2 : list A) (pre post : mem A),
    cat = Bidirectional \/ cat = RandomAccess -> l2 <> [] ->
    strict_weak_order comp -> sorted (by_proj comp proj) l1 -> sorted (by_proj comp proj) l2 ->
    exists ys, is_stable_sorting_of (by_proj comp proj) (l1 ++ l2) ys /\
    inplace_merge comp proj cat triv o (length pre) (length pre + length l1) (length pre + length l1 + length l2)
      (pre ++ map Val (l1 ++ l2) ++ post)
    = Ok tt (pre ++ map Val ys ++ post).
Proof. exact @inplace_merge_merges. Qed.
Print Assumptions C60_inplace_merge_merges.

(** detail::lower_bound and upper_bound. *)
Theorem C60_lower_bound_finds :
  forall (A T : Type) (comp : T -> T -> bool) (proj : A -> T) (xs : list A) (v : T) (pre post : mem A),
    strict_weak_order comp -> sorted (by_proj comp proj) xs ->
    exists k, lower_bound comp proj (length pre) (length pre + length xs) v (pre ++ map Val xs ++ post)
      = Ok (length pre + k) (pre ++ map Val xs ++ post) /\ k <= length xs /\
      (forall x, In x (firstn k xs) -> comp (proj x) v = true) /\
      (forall x, In x (skipn k xs) -> comp (proj x) v = false).
Proof. exact @lower_bound_finds. Qed.
Print Assumptions C60_lower_bound_finds.

Theorem C60_upper_bound_finds :
  forall (A T : Type) (comp : T -> T -> bool) (proj : A -> T) (xs : list A) (v : T) (pre post : mem A),
    strict_weak_order comp -> sorted (by_proj comp proj) xs ->
    exists k, upper_bound comp proj (length pre) (length pre + length xs) v (pre ++ map Val xs ++ post)
      = Ok (length pre + k) (pre ++ map Val xs ++ post) /\ k <= length xs /\
      (forall x, In x (firstn k xs) -> comp v (proj x) = false) /\
      (forall x, In x (skipn k xs) -> comp v (proj x) = true).
Proof. exact @upper_bound_finds. Qed.
Print Assumptions C60_upper_bound_finds.

Example C60_case : strict_weak_order Nat.ltb /\
  rotate RandomAccess true 1 3 8 (map Val [9; 1; 2; 3; 4; 5; 6; 7; 0]) = Ok 6 (map Val [9; 3; 4; 5; 6; 7; 1; 2; 0]) /\
  inplace_merge Nat.ltb fst RandomAccess true (fun _ => false) 0 3 6
    (map Val [(1, 0); (2, 0); (4, 0); (0, 1); (2, 1); (3, 1)])
  = Ok tt (map Val [(0, 1); (1, 0); (2, 0); (2, 1); (3, 1); (4, 0)]) /\
  lower_bound Nat.ltb (fun x => x) 1 5 3 (map Val [9; 1; 3; 3; 4; 0]) = Ok 2 (map Val [9; 1; 3; 3; 4; 0]) /\
  upper_bound Nat.ltb (fun x => x) 1 5 3 (map Val [9; 1; 3; 3; 4; 0]) = Ok 4 (map Val [9; 1; 3; 3; 4; 0]).
Proof. split; [exact nat_ltb_swo|]. repeat split; vm_compute; reflexivity. Qed.
