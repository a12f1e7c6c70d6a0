(** C94: small_array_adapter with the fixed-size sorters of the library. *)
From Coq Require Import List Bool Arith Lia.
From Verif Require Import Spec.Order Spec.Sorts Lang.Mem Model.Adapters Model.SmallArray Spec.SmallArray Proofs.OrderLib Proofs.SmallArray
  Props.Networks Props.Fixed.
Import ListNotations.

(** With an index sequence of its own the adapter calls the sorter for the sizes of the sequence and no other; a size for which there is no sorter is
    an error, and a soft one only when it is not in the sequence. *)
Theorem C94_explicit_indices :
  forall (f : fixed_sorter) (l : list nat) (n : nat),
    (In n l -> documented f n -> small_array f (Indices (Some l)) n = Calls (f, n)) /\
    (~ In n l -> small_array f (Indices (Some l)) n = NotCallable) /\
    (In n l -> ~ documented f n -> small_array f (Indices (Some l)) n = HardError).
Proof.
  intros f l n. unfold small_array, instantiate. cbn [indices]. rewrite <- is_in_pack_spec, <- instantiable_spec.
  destruct (is_in_pack n l), (instantiable f n); repeat split; intros; congruence.
Qed.
Print Assumptions C94_explicit_indices.

(** Without indices: "calls it whenever it is passed a fixed-size C array or an std::array with an appropriate size" and "the operator() overloads are
    SFINAEd out if a collection not handled by the fixed-size sorter is passed".  The full statement has no condition on [f] and [n]: see the
    refutations below. *)
Theorem C94_default_indices_partial :
  forall (f : fixed_sorter) (n : nat),
    (f = SortingNetwork -> n <= 32 \/ 64 < n) -> (f = OddEvenMerge -> documented f n) ->
    (documented f n -> small_array f DefaultIndices n = Calls (f, n)) /\
    (~ documented f n -> small_array f DefaultIndices n = NotCallable).
Proof.
  intros f n HS HO. unfold small_array, instantiate. cbn [indices].
  pose proof (instantiable_spec f n) as HI. pose proof (fun l => is_in_pack_spec n l) as HP.
  destruct f; cbn [domain].
  - specialize (HP (seq 0 14)). rewrite in_seq in HP. cbn [documented] in *.
    destruct (is_in_pack n (seq 0 14)), (instantiable LowComparisons n); split; intros H; auto; exfalso;
      destruct HI as [I1 I2], HP as [P1 P2]; try (assert (true = true) as X by reflexivity; specialize (P1 X)); try (specialize (P2 ltac:(lia)));
      try (specialize (I2 ltac:(lia))); try discriminate; lia.
  - cbn. split; auto. tauto.
  - cbn. split; auto. tauto.
  - specialize (HO eq_refl). apply HI in HO. rewrite HO. split; auto. intros H. exfalso. apply H. now apply HI.
  - specialize (HS eq_refl). specialize (HP (seq 0 33)). rewrite in_seq in HP. cbn [documented] in *.
    destruct (is_in_pack n (seq 0 33)), (instantiable SortingNetwork n); split; intros H; auto; exfalso;
      destruct HI as [I1 I2], HP as [P1 P2]; try (assert (true = true) as X by reflexivity; specialize (P1 X)); try (specialize (P2 ltac:(lia)));
      try (specialize (I2 ltac:(lia))); try discriminate; lia.
Qed.
Print Assumptions C94_default_indices_partial.

(** There are sorters of up to 64 elements, but the domain of sorting_network_sorter stops at 32: the adapter takes none of 33 .. 64. *)
Theorem C94_sorting_network_domain_refuted :
  forall n : nat, 33 <= n <= 64 ->
    documented SortingNetwork n /\ instantiate SortingNetwork n = Calls (SortingNetwork, n) /\
    small_array SortingNetwork DefaultIndices n = NotCallable /\ hybrid_small_array SortingNetwork DefaultIndices n = Calls None.
Proof.
  intros n Hn. assert (documented SortingNetwork n) as HD by (cbn; lia).
  assert (small_array SortingNetwork DefaultIndices n = NotCallable) as E.
  { apply (C94_explicit_indices SortingNetwork (seq 0 33) n). rewrite in_seq. lia. }
  split; [exact HD|]. split.
  - unfold instantiate. apply instantiable_spec in HD. now rewrite HD.
  - unfold hybrid_small_array. now rewrite E.
Qed.
Print Assumptions C94_sorting_network_domain_refuted.

(** odd_even_merge_network_sorter has no domain: for a size that is not a power of two the error is not a soft one, and a hybrid_adapter does not
    compile although it has a sorter for the array. *)
Theorem C94_soft_errors_refuted :
  forall n : nat, ~ documented OddEvenMerge n ->
    small_array OddEvenMerge DefaultIndices n = HardError /\ hybrid_small_array OddEvenMerge DefaultIndices n = HardError.
Proof.
  intros n H. rewrite <- instantiable_spec in H. unfold hybrid_small_array, small_array, instantiate. cbn [indices domain].
  destruct (instantiable OddEvenMerge n); [tauto|]. split; reflexivity.
Qed.
Print Assumptions C94_soft_errors_refuted.

(** In a hybrid_adapter, the fixed-size sorter takes the arrays of its sizes and the other sorter takes the rest, if every size of the sequence has a
    sorter. *)
Theorem C94_hybrid :
  forall (f : fixed_sorter) (l : list nat) (n : nat), (forall k, In k l -> documented f k) ->
    (In n l -> hybrid_small_array f (Indices (Some l)) n = Calls (Some (f, n))) /\
    (~ In n l -> hybrid_small_array f (Indices (Some l)) n = Calls None).
Proof.
  intros f l n H. destruct (C94_explicit_indices f l n) as (H1 & H2 & _). unfold hybrid_small_array. split; intros Hn.
  - rewrite H1; auto.
  - now rewrite H2.
Qed.
Print Assumptions C94_hybrid.

(** Whatever the indices, the call sorts the array (for the networks above 32 inputs, see C26). *)
Theorem C94_sorts :
  forall (A T : Type) (comp : T -> T -> bool) (proj : A -> T) (f : fixed_sorter) (i : parameter) (n : nat) (x : fixed_sorter * nat),
    strict_weak_order comp -> small_array f i n = Calls x -> (f = SortingNetwork -> n <= 32) ->
    sorts_size n (by_proj comp proj) (program x comp proj).
Proof.
  intros A T comp proj f i n x HC HE HN. destruct (small_array_calls f i n x HE) as (-> & HD & _).
  destruct f; cbn [program documented] in *.
  - now apply C29_low_comparisons_sorter_sorts.
  - now apply C30_low_moves_sorter_sorts.
  - now apply C28_merge_exchange_network_sorter_sorts.
  - now apply C27_odd_even_merge_network_sorter_sorts.
  - apply C26_sorting_network_sorter_sorts; auto.
Qed.
Print Assumptions C94_sorts.

(** With the default indices there is no condition left on the size. *)
Theorem C94_default_sorts :
  forall (A T : Type) (comp : T -> T -> bool) (proj : A -> T) (f : fixed_sorter) (n : nat) (x : fixed_sorter * nat),
    strict_weak_order comp -> small_array f DefaultIndices n = Calls x -> sorts_size n (by_proj comp proj) (program x comp proj).
Proof.
  intros A T comp proj f n x HC HE. eapply C94_sorts; eauto. intros ->.
  destruct (small_array_calls _ _ _ _ HE) as (_ & _ & H). specialize (H (seq 0 33) eq_refl). apply in_seq in H. lia.
Qed.
Print Assumptions C94_default_sorts.

(** is_stable tells the truth: what it calls stable is. *)
Theorem C94_is_stable :
  forall (A T : Type) (comp : T -> T -> bool) (proj : A -> T) (f : fixed_sorter) (i : parameter) (n : nat) (x : fixed_sorter * nat),
    strict_weak_order comp -> small_array f i n = Calls x -> is_stable f n = true ->
    sorts_size_stably n (by_proj comp proj) (program x comp proj).
Proof.
  intros A T comp proj f i n x HC HE HS. destruct (small_array_calls f i n x HE) as (-> & _ & _).
  destruct f; cbn [is_stable is_always_stable] in HS; try discriminate. apply Nat.ltb_lt in HS. now apply network_stable.
Qed.
Print Assumptions C94_is_stable.

(** "Networks 0, 1, 2 and 3 are stable", and is_stable says so. *)
Theorem C94_stable_sizes : forall (f : fixed_sorter) (n : nat), is_stable f n = true <-> f = SortingNetwork /\ n <= 3.
Proof.
  intros f n. destruct f; cbn [is_stable is_always_stable]; (split; [intros H|intros [H H']]); try discriminate.
  - apply Nat.ltb_lt in H. split; auto. lia.
  - apply Nat.ltb_lt. lia.
Qed.
Print Assumptions C94_stable_sizes.

(** schwartz_adapter<small_array_adapter<f, i>> takes the same arrays; it sorts them, stably when is_stable says so, and it calls the projection once for
    each element. *)
Theorem C94_schwartz :
  forall (A T : Type) (comp : T -> T -> bool) (proj : A -> T) (f : fixed_sorter) (i : parameter) (n : nat),
    schwartz_small_array f i n = small_array f i n /\
    forall x, schwartz_small_array f i n = Calls x -> strict_weak_order comp -> (f = SortingNetwork -> n <= 32) ->
    forall pre xs post, length xs = n -> exists calls ys,
      sort_with_schwartz (program x) comp proj (length pre) (length xs) (pre ++ map Val xs ++ post) = Ok calls (pre ++ map Val ys ++ post)
      /\ calls = xs /\ is_sorting_of (by_proj comp proj) xs ys /\ (is_stable f n = true -> is_stable_sorting_of (by_proj comp proj) xs ys).
Proof.
  intros A T comp proj f i n. split; [reflexivity|].
  intros x HE HC HN pre xs post HL. change (small_array f i n = Calls x) in HE. destruct (is_stable f n) eqn:ES.
  - destruct (schwartz_size_stably comp proj n (program x) (C94_is_stable _ _ comp snd f i n x HC HE ES) pre xs post HL) as (c & ys & E & Ec & H).
    exists c, ys. split; auto. split; auto. split; auto. destruct H as (H1 & H2 & _). now split.
  - destruct (schwartz_size comp proj n (program x) (C94_sorts _ _ comp snd f i n x HC HE HN) pre xs post HL) as (c & ys & E & Ec & H).
    exists c, ys. split; auto. split; auto. split; auto. discriminate.
Qed.
Print Assumptions C94_schwartz.

Example C94_case :
  small_array LowComparisons DefaultIndices 13 = Calls (LowComparisons, 13) /\ small_array LowComparisons DefaultIndices 14 = NotCallable /\
  small_array OddEvenMerge DefaultIndices 16 = Calls (OddEvenMerge, 16) /\ small_array OddEvenMerge DefaultIndices 12 = HardError /\
  small_array SortingNetwork (Indices (Some (seq 0 65))) 64 = Calls (SortingNetwork, 64) /\
  hybrid_small_array LowMoves (Indices (Some (seq 0 9))) 9 = Calls None /\
  hybrid_small_array LowMoves (Indices (Some (seq 0 9))) 8 = Calls (Some (LowMoves, 8)) /\
  program (SortingNetwork, 3) Nat.ltb (fun x => x / 10) 0 3 (map Val [21; 12; 11]) = Ok tt (map Val [12; 11; 21]) /\
  sort_with_schwartz (program (LowMoves, 4)) Nat.ltb (fun x => 9 - x) 1 4 (map Val [9; 4; 2; 5; 3; 1]) = Ok [4; 2; 5; 3] (map Val [9; 5; 4; 3; 2; 1]).
Proof. repeat split; reflexivity. Qed.
