(** sorter_traits.h: sorter_traits, is_stable and rebind_iterator_category.

    Simplifications: a sorter is what its class and the specializations of the traits say; a call is a number; callable is left to
    Model.Adapters. *)
From Coq Require Import List Bool Arith.
From Verif Require Import Model.Adapters.
Import ListNotations.

Record traits := Traits { iterator_category : option category; is_always_stable : option bool }.
Record sorter_class := SorterClass {
  members : traits;                          (** the types of the class, its own or inherited *)
  specialization : option traits;            (** sorter_traits<Sorter>, if it is specialized *)
  stable_calls : option (nat -> bool)        (** is_stable<Sorter(Args...)>, if it is specialized *)
}.

(** sorter_traits.h:210-223 and raw_checkers.h:36-86: the types that do not exist in the class do not exist in the traits. *)
Definition sorter_traits (s : sorter_class) : traits := match specialization s with Some t => t | None => members s end.
(** sorter_traits.h:229-238.  None: ill-formed. *)
Definition is_stable (s : sorter_class) (call : nat) : option bool :=
  match stable_calls s with Some f => Some (f call) | None => is_always_stable (sorter_traits s) end.

(** std::is_base_of for the tags: the second is the first or a more specific one. *)
Definition is_base_of (a b : category) : bool := category_value a <=? category_value b.
(** sorter_traits.h:252-266: a class that inherits the sorter; no specialization is for it.  None: the static_assert or the category fails. *)
Definition rebind_iterator_category (s : sorter_class) (c : category) : option sorter_class :=
  match iterator_category (sorter_traits s) with
  | Some own =>
      if is_base_of own c
      then Some {| members := Traits (Some c) (is_always_stable (members s)); specialization := None; stable_calls := None |}
      else None
  | None => None
  end.
