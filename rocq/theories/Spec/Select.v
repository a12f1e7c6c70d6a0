(** What it means for a program on a range to select its element number [k]. *)
From Coq Require Import List Arith Permutation.
From Verif Require Import Spec.Order Lang.Mem.
Import ListNotations.

(** [prog first last k]: the contract of [std::nth_element], with the position returned.  The cell number [k] holds an
    element that may stand there in a sorted range, the cells before it hold no greater element and the
    cells after it no smaller one. *)
Definition selects_nth {A : Type} (lt : A -> A -> bool) (prog : nat -> nat -> nat -> M A nat) : Prop :=
  forall pre xs post k, k < length xs -> exists ls z rs,
    prog (length pre) (length pre + length xs) k (pre ++ map Val xs ++ post)
      = Ok (length pre + k) (pre ++ map Val (ls ++ z :: rs) ++ post)
    /\ length ls = k /\ Permutation xs (ls ++ z :: rs)
    /\ (forall x, In x ls -> lt z x = false) /\ (forall x, In x rs -> lt x z = false).

(** Weaker: no element after position [k], that position included, is less than an element before it. *)
Definition splits_nth {A : Type} (lt : A -> A -> bool) (prog : nat -> nat -> nat -> M A nat) : Prop :=
  forall pre xs post k, k < length xs -> exists ls rs,
    prog (length pre) (length pre + length xs) k (pre ++ map Val xs ++ post)
      = Ok (length pre + k) (pre ++ map Val (ls ++ rs) ++ post)
    /\ length ls = k /\ Permutation xs (ls ++ rs)
    /\ (forall x y, In x ls -> In y rs -> lt y x = false).
