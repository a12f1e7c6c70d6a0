(** C81: utility::iter_move and utility::iter_swap, before C++20. *)
From Coq Require Import ZArith Bool.
From Verif Require Import Model.IterMove Spec.IterMove Proofs.IterMove.
Open Scope Z_scope.

(** An iterator designates the element at its position, or the previous one if it is reversed an odd number of times. *)
Theorem C81_designated_element :
  forall (t : type) (z : Z), element t z = if Nat.odd (reversals t) then z - 1 else z.
Proof. intros t z. apply element_forward. Qed.
Print Assumptions C81_designated_element.

(** The element that the iterator designates is moved from, by the dedicated iter_move if the iterator has one; so it is through any number of
    reverse_iterator and move_iterator if the innermost iterator has none. *)
Theorem C81_iter_move_partial :
  forall (t : type) (z : Z),
    (iter_move All t z = ByIterMove (element t z) \/ iter_move All t z = ByStdMove (element t z)) /\
    (~ adapted t \/ dedicated_move (innermost t) = false -> iter_move All t z = expected_move t z).
Proof.
  intros t z. split.
  - destruct t as [k|t|t]; [|right; apply iter_move_adapted; discriminate..]. simpl. destruct (dedicated_move k); auto.
  - intros [H|H].
    + apply not_moving in H as (k & ->). reflexivity.
    + unfold expected_move. rewrite H. now apply iter_move_plain.
Qed.
Print Assumptions C81_iter_move_partial.

(** But not once if it has one: the condition of the overloads for the adapters excludes exactly the iterators with a dedicated iter_move. *)
Theorem C81_iter_move_adapters_refuted :
  forall (t : type) (z : Z), adapted t -> dedicated_move (innermost t) = true -> iter_move All t z <> expected_move t z.
Proof. intros t z HA HD. rewrite iter_move_adapted by auto. unfold expected_move. rewrite HD. discriminate. Qed.
Print Assumptions C81_iter_move_adapters_refuted.

(** iter_swap is as documented for the iterators that are not adapters, except those with a dedicated iter_move, without iter_swap and with namespace std
    associated; and for reverse_iterators over iterators without dedicated functions. *)
Theorem C81_iter_swap_partial :
  forall (t : type) (x y : Z),
    (forall k, t = Base k -> (dedicated_move k && negb (dedicated_swap k) && in_std k = false <-> iter_swap All t x y = expected_swap t x y)) /\
    (adapted t -> (~ contains_move t /\ dedicated_move (innermost t) || dedicated_swap (innermost t) = false <->
                   iter_swap All t x y = expected_swap t x y)).
Proof.
  intros t x y. split.
  - intros k ->. destruct k as [[] [] []]; unfold expected_swap, expected_move; simpl; split; intros; try reflexivity; try discriminate.
  - intros HA. rewrite <- gives_rvalue_spec, iter_swap_adapted by auto. unfold expected_swap, expected_move, swap.
    destruct (gives_rvalue t), (dedicated_move (innermost t)), (dedicated_swap (innermost t)); simpl; split; try discriminate; try (intros [? ?]; discriminate); auto.
Qed.
Print Assumptions C81_iter_swap_partial.

(** std::iter_swap stands in the way: a dedicated iter_move is not used, whatever the documentation says; and calls with move_iterators do not compile. *)
Theorem C81_iter_swap_refuted :
  (forall (x y : Z), iter_swap All (Base (Kind true false true)) x y = BySwap x y) /\
  (forall (t : type) (x y : Z), iter_swap All (Move t) x y = DoesNotCompile).
Proof. split; reflexivity. Qed.
Print Assumptions C81_iter_swap_refuted.

(** A reverse_iterator around a reverse_iterator around an iterator at position 5. *)
Example C81_case :
  let k := Kind false false false in let t := Reverse (Reverse (Base k)) in let proxy := Kind true false false in
  ~ adapted (Base proxy) /\ iter_move All (Base proxy) 5 = ByIterMove 5 /\ iter_swap All (Base proxy) 5 7 = ByMoves (ByIterMove 5) (ByIterMove 7) /\
  adapted t /\ dedicated_move (innermost t) = false /\ element t 5 = 5 /\ element (Reverse (Base k)) 5 = 4 /\
  iter_move All t 5 = ByStdMove 5 /\ iter_move All (Reverse (Base k)) 5 = ByStdMove 4 /\
  iter_swap All (Reverse (Base k)) 5 9 = BySwap 4 8 /\
  adapted (Reverse (Base proxy)) /\ dedicated_move (innermost (Reverse (Base proxy))) = true.
Proof. cbv zeta. repeat split; try discriminate. intros H. now destruct (H (Kind true false false)). Qed.
