(** C43, C49, C50, C51: indirect sorting and permutations.

    The adapted sorter is any function [inner] which, given a comparison and a projection of
    iterators, sorts collections of iterators whenever the comparison is a strict weak order. *)
From Coq Require Import List Arith Permutation.
From Verif Require Import Spec.Order Lang.Mem Spec.Sorts Model.Indirect Model.Heap Model.Insertion
  Proofs.OrderLib Proofs.Indirect Proofs.Insertion Proofs.Heap Proofs.Examples.
Import ListNotations.

(** ** C43 *)
Theorem C43_indirect_adapter_sorts :
  forall (A T : Type) (comp : T -> T -> bool) (proj : A -> T)
      (inner : (T -> T -> bool) -> (nat * A -> T) -> range_prog (nat * A)),
    strict_weak_order comp ->
    (forall c p, strict_weak_order c -> sorts (by_proj c p) (inner c p)) ->
    forall pre xs post, exists moves ys,
      sort_indirectly inner comp proj (length pre) (length pre + length xs) (pre ++ map Val xs ++ post)
        = Ok moves (pre ++ map Val ys ++ post)
      /\ is_sorting_of (by_proj comp proj) xs ys /\ moves <= 3 * length xs / 2.
Proof.
  intros A T comp proj inner HC HI pre xs post.
  destruct (sort_indirectly_gen comp proj _ (is_sorting_of (by_proj comp proj)) inner
    (fun v v' H => proj1 H) (sorting_map (by_proj comp proj) snd) (HI _ _ HC) pre xs post) as (mv & ys & E & H1 & H2).
  exists mv, ys. repeat split; try apply H1; auto. apply Nat.div_le_lower_bound; auto.
Qed.
Print Assumptions C43_indirect_adapter_sorts.

Theorem C43_indirect_adapter_sorts_stably :
  forall (A T : Type) (comp : T -> T -> bool) (proj : A -> T)
      (inner : (T -> T -> bool) -> (nat * A -> T) -> range_prog (nat * A)),
    strict_weak_order comp ->
    (forall c p, strict_weak_order c -> sorts_stably (by_proj c p) (inner c p)) ->
    forall pre xs post, exists moves ys,
      sort_indirectly inner comp proj (length pre) (length pre + length xs) (pre ++ map Val xs ++ post)
        = Ok moves (pre ++ map Val ys ++ post)
      /\ is_stable_sorting_of (by_proj comp proj) xs ys /\ moves <= 3 * length xs / 2.
Proof.
  intros A T comp proj inner HC HI pre xs post.
  destruct (sort_indirectly_gen comp proj _ (is_stable_sorting_of (by_proj comp proj)) inner
    (fun v v' H => proj1 H) (stable_sorting_map (by_proj comp proj) snd (swo_by_proj _ _ _ proj HC))
    (HI _ _ HC) pre xs post) as (mv & ys & E & H1 & H2).
  exists mv, ys. repeat split; try apply H1; auto. apply Nat.div_le_lower_bound; auto.
Qed.
Print Assumptions C43_indirect_adapter_sorts_stably.

(** Forward and bidirectional iterators. *)
Theorem C43_indiesort_sorts :
  forall (A T : Type) (comp : T -> T -> bool) (proj : A -> T)
      (inner : (T -> T -> bool) -> (nat * A * nat -> T) -> range_prog (nat * A * nat)),
    strict_weak_order comp ->
    (forall c p, strict_weak_order c -> sorts (by_proj c p) (inner c p)) ->
    forall pre xs post, exists moves ys,
      indiesort inner comp proj (length pre) (length pre + length xs) (pre ++ map Val xs ++ post)
        = Ok moves (pre ++ map Val ys ++ post)
      /\ is_sorting_of (by_proj comp proj) xs ys /\ moves <= 3 * length xs / 2.
Proof.
  intros A T comp proj inner HC HI pre xs post.
  destruct (indiesort_gen comp proj _ (is_sorting_of (by_proj comp proj)) inner
    (fun v v' H => proj1 H) (sorting_map (by_proj comp proj) (fun t => snd (fst t))) (HI _ _ HC) pre xs post)
    as (mv & ys & E & H1 & H2).
  exists mv, ys. repeat split; try apply H1; auto. apply Nat.div_le_lower_bound; auto.
Qed.
Print Assumptions C43_indiesort_sorts.

Theorem C43_indiesort_sorts_stably :
  forall (A T : Type) (comp : T -> T -> bool) (proj : A -> T)
      (inner : (T -> T -> bool) -> (nat * A * nat -> T) -> range_prog (nat * A * nat)),
    strict_weak_order comp ->
    (forall c p, strict_weak_order c -> sorts_stably (by_proj c p) (inner c p)) ->
    forall pre xs post, exists moves ys,
      indiesort inner comp proj (length pre) (length pre + length xs) (pre ++ map Val xs ++ post)
        = Ok moves (pre ++ map Val ys ++ post)
      /\ is_stable_sorting_of (by_proj comp proj) xs ys /\ moves <= 3 * length xs / 2.
Proof.
  intros A T comp proj inner HC HI pre xs post.
  destruct (indiesort_gen comp proj _ (is_stable_sorting_of (by_proj comp proj)) inner
    (fun v v' H => proj1 H) (stable_sorting_map (by_proj comp proj) (fun t => snd (fst t)) (swo_by_proj _ _ _ proj HC))
    (HI _ _ HC) pre xs post) as (mv & ys & E & H1 & H2).
  exists mv, ys. repeat split; try apply H1; auto. apply Nat.div_le_lower_bound; auto.
Qed.
Print Assumptions C43_indiesort_sorts_stably.

(** Whatever the comparison, if the adapted sorter permutes its iterators the collection is permuted. *)
Theorem C43_indirect_adapter_permutes :
  forall (A T : Type) (comp : T -> T -> bool) (proj : A -> T)
      (inner : (T -> T -> bool) -> (nat * A -> T) -> range_prog (nat * A)),
    (forall c p, permutes (inner c p)) ->
    forall pre xs post, exists moves ys,
      sort_indirectly inner comp proj (length pre) (length pre + length xs) (pre ++ map Val xs ++ post)
        = Ok moves (pre ++ map Val ys ++ post)
      /\ Permutation xs ys /\ moves <= 3 * length xs / 2.
Proof.
  intros A T comp proj inner HI pre xs post.
  destruct (sort_indirectly_gen comp proj _ (@Permutation A) inner
    (fun v v' H => H) (fun v v' H => Permutation_map snd H) (HI _ _) pre xs post) as (mv & ys & E & H1 & H2).
  exists mv, ys. repeat split; auto. apply Nat.div_le_lower_bound; auto.
Qed.
Print Assumptions C43_indirect_adapter_permutes.

Theorem C43_indiesort_permutes :
  forall (A T : Type) (comp : T -> T -> bool) (proj : A -> T)
      (inner : (T -> T -> bool) -> (nat * A * nat -> T) -> range_prog (nat * A * nat)),
    (forall c p, permutes (inner c p)) ->
    forall pre xs post, exists moves ys,
      indiesort inner comp proj (length pre) (length pre + length xs) (pre ++ map Val xs ++ post)
        = Ok moves (pre ++ map Val ys ++ post)
      /\ Permutation xs ys /\ moves <= 3 * length xs / 2.
Proof.
  intros A T comp proj inner HI pre xs post.
  destruct (indiesort_gen comp proj _ (@Permutation A) inner
    (fun v v' H => H) (fun v v' H => Permutation_map (fun t => snd (fst t)) H) (HI _ _) pre xs post)
    as (mv & ys & E & H1 & H2).
  exists mv, ys. repeat split; auto. apply Nat.div_le_lower_bound; auto.
Qed.
Print Assumptions C43_indiesort_permutes.

Example C43_case :
  (forall c p, strict_weak_order c -> sorts (by_proj c p) (@heap_sorter (nat * nat) nat c p)) /\
  (forall c p, strict_weak_order c -> sorts_stably (by_proj c p) (@insertion_sorter (nat * nat * nat) nat c p)) /\
  sort_indirectly (@heap_sorter _ _) Nat.ltb (fun x : nat => x) 1 6 (map Val [9; 4; 2; 5; 3; 1; 0])
    = Ok 5 (map Val [9; 1; 2; 3; 4; 5; 0]) /\
  indiesort (@insertion_sorter _ _) Nat.ltb (fun x : nat => x) 1 6 (map Val [9; 4; 2; 5; 3; 1; 0])
    = Ok 5 (map Val [9; 1; 2; 3; 4; 5; 0]) /\
  (* The bound is reached. *)
  sort_indirectly (@heap_sorter _ _) Nat.ltb (fun x : nat => x) 1 5 (map Val [9; 2; 1; 4; 3; 0])
    = Ok 6 (map Val [9; 1; 2; 3; 4; 0]).
Proof.
  split; [intros; now apply heap_sorts|]. split; [intros; now apply insertion_sorts_stably|].
  vm_compute. repeat split; reflexivity.
Qed.

(** ** C49 *)
Theorem C49_apply_permutation_permutes :
  forall (A : Type) (pre : mem A) (xs : list A) (post : mem A) (idx : list nat),
    Permutation idx (seq 0 (length xs)) ->
    exists ys,
      apply_permutation (length pre) (length pre + length xs) idx (pre ++ map Val xs ++ post)
        = Ok (seq 0 (length xs)) (pre ++ map Val ys ++ post)
      /\ Permutation xs ys
      /\ (forall i k, nth_error idx i = Some k -> nth_error ys i = nth_error xs k).
Proof.
  intros A pre xs post idx HP.
  destruct (apply_permutation_ok pre xs post idx HP) as (ys & E & H1 & H2).
  exists ys. repeat split; auto. intros i k Hi. eapply gather_nth; eauto.
  apply nth_error_In, (Permutation_in _ HP), in_seq in Hi. simpl in Hi. tauto.
Qed.
Print Assumptions C49_apply_permutation_permutes.

Example C49_case : Permutation [3; 0; 2; 4; 1] (seq 0 5) /\
  apply_permutation 1 6 [3; 0; 2; 4; 1] (map Val [99; 10; 11; 12; 13; 14; 98])
    = Ok [0; 1; 2; 3; 4] (map Val [99; 13; 10; 12; 14; 11; 98]).
Proof.
  split; [|reflexivity].
  apply NoDup_Permutation.
  - repeat (constructor; [simpl; intuition discriminate|]). constructor.
  - apply seq_NoDup.
  - intros x. simpl. intuition.
Qed.

(** ** C50 *)
Theorem C50_sorted_indices_sorts :
  forall (A T : Type) (comp : T -> T -> bool) (proj : A -> T)
      (inner : (T -> T -> bool) -> (nat * A -> T) -> range_prog (nat * A)),
    strict_weak_order comp ->
    (forall c p, strict_weak_order c -> sorts (by_proj c p) (inner c p)) ->
    forall pre xs post, exists idx ys,
      sorted_indices inner comp proj (length pre) (length pre + length xs) (pre ++ map Val xs ++ post)
        = Ok idx (pre ++ map Val xs ++ post)
      /\ Permutation idx (seq 0 (length xs))
      /\ map (nth_error xs) idx = map Some ys /\ is_sorting_of (by_proj comp proj) xs ys.
Proof.
  intros A T comp proj inner HC HI pre xs post.
  exact (sorted_indices_gen comp proj _ (is_sorting_of (by_proj comp proj)) inner
    (fun v v' H => proj1 H) (sorting_map (by_proj comp proj) snd) (HI _ _ HC) pre xs post).
Qed.
Print Assumptions C50_sorted_indices_sorts.

Theorem C50_sorted_indices_sorts_stably :
  forall (A T : Type) (comp : T -> T -> bool) (proj : A -> T)
      (inner : (T -> T -> bool) -> (nat * A -> T) -> range_prog (nat * A)),
    strict_weak_order comp ->
    (forall c p, strict_weak_order c -> sorts_stably (by_proj c p) (inner c p)) ->
    forall pre xs post, exists idx ys,
      sorted_indices inner comp proj (length pre) (length pre + length xs) (pre ++ map Val xs ++ post)
        = Ok idx (pre ++ map Val xs ++ post)
      /\ Permutation idx (seq 0 (length xs))
      /\ map (nth_error xs) idx = map Some ys /\ is_stable_sorting_of (by_proj comp proj) xs ys.
Proof.
  intros A T comp proj inner HC HI pre xs post.
  exact (sorted_indices_gen comp proj _ (is_stable_sorting_of (by_proj comp proj)) inner
    (fun v v' H => proj1 H) (stable_sorting_map (by_proj comp proj) snd (swo_by_proj _ _ _ proj HC))
    (HI _ _ HC) pre xs post).
Qed.
Print Assumptions C50_sorted_indices_sorts_stably.

(** The indices, passed to apply_permutation, sort the collection. *)
Theorem C50_sorted_indices_then_apply_permutation :
  forall (A T : Type) (comp : T -> T -> bool) (proj : A -> T)
      (inner : (T -> T -> bool) -> (nat * A -> T) -> range_prog (nat * A)),
    strict_weak_order comp ->
    (forall c p, strict_weak_order c -> sorts (by_proj c p) (inner c p)) ->
    sorts (by_proj comp proj) (fun first last =>
      bind (sorted_indices inner comp proj first last) (fun indices =>
      bind (apply_permutation first last indices) (fun _ => ret tt))).
Proof.
  intros A T comp proj inner HC HI pre xs post.
  destruct (C50_sorted_indices_sorts A T comp proj inner HC HI pre xs post) as (idx & ys & E & HP & HG & HS).
  exists ys. split; auto. unfold bind. rewrite E.
  destruct (apply_permutation_ok pre xs post idx HP) as (ys' & -> & H1 & H2).
  assert (ys' = ys) as ->; [|reflexivity].
  unfold gather in H2. rewrite HG in H2. clear - H2. revert ys H2.
  induction ys'; destruct ys; simpl; intros H; inversion H; auto. f_equal. auto.
Qed.
Print Assumptions C50_sorted_indices_then_apply_permutation.

Example C50_case :
  (forall c p, strict_weak_order c -> sorts (by_proj c p) (@heap_sorter (nat * nat) nat c p)) /\
  sorted_indices (@heap_sorter _ _) Nat.ltb (fun x : nat => x) 1 6 (map Val [9; 4; 2; 5; 3; 1; 0])
    = Ok [4; 1; 3; 0; 2] (map Val [9; 4; 2; 5; 3; 1; 0]).
Proof. split; [intros; now apply heap_sorts|reflexivity]. Qed.

(** ** C51 *)
Theorem C51_sorted_iterators_sorts :
  forall (A T : Type) (comp : T -> T -> bool) (proj : A -> T)
      (inner : (T -> T -> bool) -> (nat * A -> T) -> range_prog (nat * A)),
    strict_weak_order comp ->
    (forall c p, strict_weak_order c -> sorts (by_proj c p) (inner c p)) ->
    forall pre xs post, exists its ys,
      sorted_iterators inner comp proj (length pre) (length pre + length xs) (pre ++ map Val xs ++ post)
        = Ok its (pre ++ map Val xs ++ post)
      /\ Permutation its (seq (length pre) (length xs))
      /\ map (fun it => nth_error (pre ++ map Val xs ++ post) it) its = map (fun y => Some (Val y)) ys
      /\ is_sorting_of (by_proj comp proj) xs ys.
Proof.
  intros A T comp proj inner HC HI pre xs post.
  exact (sorted_iterators_gen comp proj _ (is_sorting_of (by_proj comp proj)) inner
    (fun v v' H => proj1 H) (sorting_map (by_proj comp proj) snd) (HI _ _ HC) pre xs post).
Qed.
Print Assumptions C51_sorted_iterators_sorts.

Theorem C51_sorted_iterators_sorts_stably :
  forall (A T : Type) (comp : T -> T -> bool) (proj : A -> T)
      (inner : (T -> T -> bool) -> (nat * A -> T) -> range_prog (nat * A)),
    strict_weak_order comp ->
    (forall c p, strict_weak_order c -> sorts_stably (by_proj c p) (inner c p)) ->
    forall pre xs post, exists its ys,
      sorted_iterators inner comp proj (length pre) (length pre + length xs) (pre ++ map Val xs ++ post)
        = Ok its (pre ++ map Val xs ++ post)
      /\ Permutation its (seq (length pre) (length xs))
      /\ map (fun it => nth_error (pre ++ map Val xs ++ post) it) its = map (fun y => Some (Val y)) ys
      /\ is_stable_sorting_of (by_proj comp proj) xs ys.
Proof.
  intros A T comp proj inner HC HI pre xs post.
  exact (sorted_iterators_gen comp proj _ (is_stable_sorting_of (by_proj comp proj)) inner
    (fun v v' H => proj1 H) (stable_sorting_map (by_proj comp proj) snd (swo_by_proj _ _ _ proj HC))
    (HI _ _ HC) pre xs post).
Qed.
Print Assumptions C51_sorted_iterators_sorts_stably.

Example C51_case :
  (forall c p, strict_weak_order c -> sorts (by_proj c p) (@heap_sorter (nat * nat) nat c p)) /\
  sorted_iterators (@heap_sorter _ _) Nat.ltb (fun x : nat => x) 1 6 (map Val [9; 4; 2; 5; 3; 1; 0])
    = Ok [5; 2; 4; 1; 3] (map Val [9; 4; 2; 5; 3; 1; 0]).
Proof. split; [intros; now apply heap_sorts|reflexivity]. Qed.
