(** What calls of sort and stable_sort are to do (docs/Sorting-functions.md). *)
From Coq Require Import List Bool.
From Verif Require Import Model.SortFunctions.
Import ListNotations.

(** What is sorted: a collection, or what is between two iterators. *)
Inductive object := ACollection (v : value_category) | APair (v w : value_category).
Definition object_arguments (o : object) : list argument :=
  match o with ACollection v => [(Iterable, v)] | APair v w => [(Iterator, v); (Iterator, w)] end.
Definition is_collection (o : object) : bool := match o with ACollection _ => true | APair _ _ => false end.
Definition function_arguments (fs : list (fn * value_category)) : list argument := map (fun f => (Fun (fst f), snd f)) fs.

(** A call: a sorter or none, what is sorted, the functions. *)
Definition arguments (s : option value_category) (o : object) (fs : list (fn * value_category)) : list argument :=
  match s with Some v => [(Sorter, v)] | None => [] end ++ object_arguments o ++ function_arguments fs.

(** A comparison, a projection, both in that order, or none. *)
Definition proper (fs : list (fn * value_category)) : Prop :=
  match map fst fs with
  | [] | [_] => True
  | [c; p] => (exists r, c = Comparison r) /\ p = Projection
  | _ => False
  end.

(** The sorter that is given, or the default one, is called with the other arguments; it is an error if it does not accept them. *)
Definition expected (accepts : bool -> list fn -> bool) (s : option value_category) (o : object) (fs : list (fn * value_category)) : result :=
  let args := map fst (object_arguments o ++ function_arguments fs) in
  match s with
  | None => Runs DefaultSorter args
  | Some _ => if accepts (is_collection o) (map fst fs) then Runs GivenSorter args else CompileError
  end.
