(** What it means for a program on a range to sort it. *)
From Coq Require Import List Arith Permutation.
From Verif Require Import Spec.Order Lang.Mem.
Import ListNotations.

(** Run on the range that holds [xs], with arbitrary memory [pre] before and
    [post] after, the program returns normally; the range then holds the elements of [xs],
    sorted; the memory around it is unchanged. *)
Definition sorts {A : Type} (lt : A -> A -> bool) (prog : range_prog A) : Prop :=
  forall pre xs post, exists ys,
    prog (length pre) (length pre + length xs) (pre ++ map Val xs ++ post)
      = Ok tt (pre ++ map Val ys ++ post)
    /\ is_sorting_of lt xs ys.

Definition sorts_stably {A : Type} (lt : A -> A -> bool) (prog : range_prog A) : Prop :=
  forall pre xs post, exists ys,
    prog (length pre) (length pre + length xs) (pre ++ map Val xs ++ post)
      = Ok tt (pre ++ map Val ys ++ post)
    /\ is_stable_sorting_of lt xs ys.

(** Same, on collections of exactly [n] elements. *)
Definition sorts_size {A : Type} (n : nat) (lt : A -> A -> bool) (prog : range_prog A) : Prop :=
  forall pre xs post, length xs = n -> exists ys,
    prog (length pre) (length pre + length xs) (pre ++ map Val xs ++ post)
      = Ok tt (pre ++ map Val ys ++ post)
    /\ is_sorting_of lt xs ys.

(** The program only permutes the elements of the range, whatever the comparator does. *)
Definition permutes {A : Type} (prog : range_prog A) : Prop :=
  forall pre xs post, exists ys,
    prog (length pre) (length pre + length xs) (pre ++ map Val xs ++ post)
      = Ok tt (pre ++ map Val ys ++ post)
    /\ Permutation xs ys.

(** Same, on collections of exactly [n] elements. *)
Definition permutes_size {A : Type} (n : nat) (prog : range_prog A) : Prop :=
  forall pre xs post, length xs = n -> exists ys,
    prog (length pre) (length pre + length xs) (pre ++ map Val xs ++ post)
      = Ok tt (pre ++ map Val ys ++ post)
    /\ Permutation xs ys.

(** Compare-exchange pairs [(a, b)] with [a < b < n]. *)
Definition in_bounds (n : nat) (pairs : list (nat * nat)) : Prop :=
  Forall (fun p => fst p < snd p /\ snd p < n) pairs.
