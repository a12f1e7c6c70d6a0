(** adapters/self_sort_adapter.h and detail/stable_adapter_self_sort_adapter.h: what a call runs, and what is_stable says about it.

    Simplifications: the value categories of the arguments and the results are left out; a function is a comparison or a projection, not both; a call with
    two iterators is not taken for one with an iterable (the overload on iterators is more specialized). *)
From Coq Require Import List Bool Arith.
From Verif Require Import Model.Facade.
Import ListNotations.

(** The collections: an lvalue std::list<T> or std::forward_list<T>, another list of the standard library (another allocator), another class. *)
Inductive collection := StandardList | OtherList | UserDefined.
(** What the body of an overload calls. *)
Inductive action := SortMethod (args : list fn) | StableSortMethod (args : list fn) | AdaptedSorter (w : form) (args : list fn).
Inductive result := NotCallable | AmbiguousCall | HardError | Runs (a : action).

Section Adapter.
(** The member functions sort and stable_sort of a class that is not a list of the standard library, the calls that the adapted sorter accepts, and what
    is_stable says about them. *)
Variables (member_sort member_stable_sort : list fn -> bool) (accepts adapted_is_stable : form -> list fn -> bool).

(** self_sort_adapter.h:29-55.  The member function sort of the lists is declared without parameters, and for any type of comparison: no constraint. *)
Definition has_sort_method (k : collection) (args : list fn) : bool := match k with UserDefined => member_sort args | _ => length args <=? 1 end.
Definition has_stable_sort_method (k : collection) (args : list fn) : bool := match k with UserDefined => member_stable_sort args | _ => false end.

(** The instantiation of the body of the list's sort is an error if the function is not a comparison. *)
Definition instantiate (k : collection) (a : action) : result :=
  match k, a with
  | UserDefined, _ => Runs a
  | _, SortMethod [f] => if is_comparison f then Runs a else HardError
  | _, _ => Runs a
  end.
(** The overloads whose condition holds, one at most. *)
Definition select (k : collection) (l : list (bool * action)) : result :=
  match filter fst l with
  | [] => NotCallable
  | [(_, a)] => instantiate k a
  | _ => AmbiguousCall
  end.

(** self_sort_adapter.h:82-112 *)
Definition self_sort (k : collection) (args : list fn) : result :=
  select k
    [ (has_sort_method k args, SortMethod args);
      (negb (has_sort_method k args) && has_stable_sort_method k args, StableSortMethod args);
      (negb (has_sort_method k args) && negb (has_stable_sort_method k args) && accepts Iterable args, AdaptedSorter Iterable args) ].
(** self_sort_adapter.h:114-121 *)
Definition self_sort_iterators (args : list fn) : result := if accepts Iterators args then Runs (AdaptedSorter Iterators args) else NotCallable.

(** self_sort_adapter.h:132-176; [None] is a call with iterators. *)
Definition self_sort_is_stable (k : option collection) (args : list fn) : bool :=
  match k, args with
  | None, _ => adapted_is_stable Iterators args
  | Some StandardList, [] => true
  | Some StandardList, [f] => if is_projection f then adapted_is_stable Iterable args else true
  | Some k, _ => if has_sort_method k args then false else if has_stable_sort_method k args then true else adapted_is_stable Iterable args
  end.

(** stable_adapter_self_sort_adapter.h:47-112.  The special cases are more specialized than the generic ones.  [accepts] is about the adapted sorter
    made stable. *)
Definition stable_self_sort (k : collection) (args : list fn) : result :=
  let special := match k, args with StandardList, [] => true | StandardList, [f] => negb (is_projection f) | _, _ => false end in
  if special then instantiate k (SortMethod args)
  else select k
    [ (has_stable_sort_method k args, StableSortMethod args);
      (negb (has_stable_sort_method k args) && accepts Iterable args, AdaptedSorter Iterable args) ].
End Adapter.
