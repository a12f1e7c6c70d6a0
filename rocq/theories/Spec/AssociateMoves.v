(** What a sorter that works on the collection itself does to the elements. *)
From Coq Require Import List ZArith Bool.
From Verif Require Import Model.IterMove Model.AssociateMoves.
Import ListNotations.

Fixpoint iterator_of_collection (it : iterator) : kind :=
  match it with Plain k => k | Associate it => iterator_of_collection it end.
Fixpoint adapters (it : iterator) : nat :=
  match it with Plain _ => 0 | Associate it => S (adapters it) end.

(** The elements that are moved from and how, and those that are swapped, in this order. *)
Inductive movement := MovedFrom (m : moved) | Exchanged (s : swapped).
(** A sorter uses iter_move where it says so, std::move elsewhere, and iter_swap. *)
Definition expected_movement (k : kind) (o : op) : list movement :=
  match o with
  | Take z | Move z _ => [MovedFrom (if dedicated_move k then ByIterMove z else ByStdMove z)]
  | Put _ => []
  | MoveDeref z _ => [MovedFrom (ByStdMove z)]
  | Swap i j => [Exchanged (iter_swap All (Base k) i j)]
  end.
(** The elements that are assigned to. *)
Definition expected_assignments (o : op) : list Z :=
  match o with Put z | Move _ z | MoveDeref _ z => [z] | Take _ | Swap _ _ => [] end.

Definition movement_of (a : action) : list movement :=
  match a with
  | Constructed m | Assigned _ (FromIterator m) => [MovedFrom m]
  | Assigned _ FromTemporary => []
  | Swapped s => [Exchanged s]
  end.
Definition assignments_of (a : action) : list Z :=
  match a with Assigned z _ => [z] | _ => [] end.

Definition uses_iter_move (o : op) : Prop := match o with Take _ | Move _ _ => True | _ => False end.
Definition assigns_deref (o : op) : Prop := match o with MoveDeref _ _ => True | _ => False end.
(** Which element is moved from, however it is. *)
Definition regardless_of_function (m : movement) : movement :=
  match m with MovedFrom (ByIterMove z) => MovedFrom (ByStdMove z) | _ => m end.
