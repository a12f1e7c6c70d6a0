(** The sizes that the documentation gives for the fixed-size sorters (docs/Fixed-size-sorters.md). *)
From Coq Require Import List Arith.
From Verif Require Import Spec.Order Lang.Mem Model.SmallArray.

(** "0 thru 13" in the table of low_comparisons_sorter; "This sorter has no upper bound" (low_moves_sorter); merge_exchange_network_sorter: no
    restriction; "only accepts power of 2" (odd_even_merge_network_sorter), and 0; "for 0 thru 64 inputs" (sorting_network_sorter). *)
Definition documented (f : fixed_sorter) (n : nat) : Prop :=
  match f with
  | LowComparisons => n <= 13
  | LowMoves | MergeExchange => True
  | OddEvenMerge => n = 0 \/ exists k, n = 2 ^ k
  | SortingNetwork => n <= 64
  end.

Definition sorts_size_stably {A : Type} (n : nat) (lt : A -> A -> bool) (prog : range_prog A) : Prop :=
  forall pre xs post, length xs = n -> exists ys,
    prog (length pre) (length pre + length xs) (pre ++ map Val xs ++ post) = Ok tt (pre ++ map Val ys ++ post) /\ is_stable_sorting_of lt xs ys.
