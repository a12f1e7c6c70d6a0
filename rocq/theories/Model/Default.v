(** sorters/default_sorter.h: which program a call runs.

    Simplifications: a list is seen through the sequence of its values, and its member function sort as a program on that sequence; the collections other
    than the lists have no member function called sort or stable_sort; the facades of the sorters (C74) accept the four kinds of calls. *)
From Coq Require Import List Arith Bool.
From Verif Require Import Lang.Mem Model.Rotate Model.Buffer Model.Merge Model.Fixed Model.Quick Model.Pdq.
From Verif Require Model.Adapters Model.Facade Model.SelfSort.
Import ListNotations.

(** What a call sorts: an lvalue std::list or std::forward_list, an lvalue std::array or array of [n] elements, another collection, or a pair of
    iterators. *)
Inductive object := StdList | StdForwardList | Array (n : nat) | Collection (it : category) | PairOf (it : category).
Inductive outcome (A : Type) := DoesNotCompile | Program (p : range_prog A).
Arguments DoesNotCompile {A}.
Arguments Program {A} p.

Definition iterators (o : object) : category :=
  match o with StdList => Bidirectional | StdForwardList => Forward | Array _ => RandomAccess | Collection it | PairOf it => it end.
Definition bidirectional (it : category) : bool := match it with Forward => false | _ => true end.
Definition tag (it : category) : Adapters.category :=
  match it with Forward => Adapters.Forward | Bidirectional => Adapters.Bidirectional | RandomAccess => Adapters.RandomAccess end.

Section Model.
Context {A T : Type}.
(** The comparison and the projection of the call, or the default ones; [lenient], [branchless]: see Model/Pdq.v; [member]: the function sort of the list,
    called with the comparison of the call. *)
Variables (comp : T -> T -> bool) (proj : A -> T) (lenient branchless : bool) (member : range_prog A).

(** default_sorter.h:48-51; None: small_array_adapter is not callable. *)
Definition small_arrays (o : object) : option (range_prog A) :=
  match o with
  | Array n => Adapters.small_array_adapter (low_comparisons_sorter comp proj) (Some (seq 0 14)) n
  | _ => None
  end.

(** default_sorter.h:47-54 *)
Definition hybrid (o : object) : outcome A :=
  let small := match small_arrays o with
               | Some p => (Adapters.RandomAccess, true, p)
               | None => (Adapters.RandomAccess, false, fun _ _ => ub)
               end in
  match Adapters.hybrid_adapter
    [ small;
      (Adapters.Forward, true, quick_sorter comp proj (bidirectional (iterators o)));
      (Adapters.RandomAccess, true, pdq_sorter comp proj lenient branchless) ] (tag (iterators o)) with
  | Some p => Program p
  | None => DoesNotCompile
  end.

(** The functions of a call: a comparison, a projection, both in that order, or none. *)
Definition accepts (w : Facade.form) (args : list Facade.fn) : bool :=
  match args with
  | [] => true
  | [f] => Facade.is_comparison f || Facade.is_projection f
  | [c; p] => Facade.is_comparison c && Facade.is_projection p
  | _ => false
  end.

Definition run (o : object) (r : SelfSort.result) : outcome A :=
  match r with
  | SelfSort.Runs (SelfSort.SortMethod _) => Program member
  | SelfSort.Runs (SelfSort.AdaptedSorter _ _) => hybrid o
  | _ => DoesNotCompile
  end.

(** default_sorter.h:44-56: self_sort_adapter around the hybrid_adapter. *)
Definition default_sorter (o : object) (args : list Facade.fn) : outcome A :=
  run o match o with
        | StdList | StdForwardList => SelfSort.self_sort (fun _ => false) (fun _ => false) accepts SelfSort.StandardList args
        | Array _ | Collection _ => SelfSort.self_sort (fun _ => false) (fun _ => false) accepts SelfSort.UserDefined args
        | PairOf _ => SelfSort.self_sort_iterators accepts args
        end.

(** default_sorter.h:30-39: the specialization of stable_adapter is merge_sorter, for every collection and for iterators. *)
Definition stable_default_sorter (triv : bool) (alloc : oracle) (o : object) (args : list Facade.fn) : outcome A :=
  if accepts Facade.Iterable args then Program (merge_sorter comp proj (iterators o) triv alloc) else DoesNotCompile.
End Model.
