(** What is known of the stability of what a call of self_sort_adapter runs. *)
From Coq Require Import List Bool.
From Verif Require Import Model.Facade Model.SelfSort.
Import ListNotations.

Section Stability.
(** [adapted_stable w args]: the call of the adapted sorter is stable. *)
Variable adapted_stable : form -> list fn -> Prop.
(** The sort methods of the standard lists are stable ([list.ops]); so is a method called stable_sort; nothing is known of a method called sort. *)
Definition is_a_list (k : option collection) : bool := match k with Some StandardList | Some OtherList => true | _ => false end.
Definition known_stable (k : option collection) (a : action) : Prop :=
  match a with
  | SortMethod _ => is_a_list k = true
  | StableSortMethod _ => True
  | AdaptedSorter w args => adapted_stable w args
  end.
End Stability.
Definition functions (a : action) : list fn := match a with SortMethod args | StableSortMethod args | AdaptedSorter _ args => args end.
