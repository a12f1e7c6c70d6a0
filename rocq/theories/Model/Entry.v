(** How the sorters and adapters get the size of what they sort: utility/size.h and the entry points of sorters/ and adapters/.

    Simplifications: a collection is the list of its elements with what its type offers; an entry point is reduced to the category that the
    sorter declares, to its parameters (a collection or two iterators) and to where it takes the size from; what the algorithm does with the
    iterators is left to the other models. *)
From Coq Require Import ZArith List Bool String.
Import ListNotations.

(** ** utility/size.h *)
Section Size.
Context {A : Type}.
Record collection := Collection {
  elements : list A;
  is_array : bool;
  size_method : option nat;        (* what size() gives, if it can be called on a constant *)
  constant_begin : bool            (* begin() and end() can be called on a constant *)
}.
(** The parameters: const Iterable&, Iterable&, const T (&)[N]. *)
Inductive parameter := ConstIterable | Iterable | ConstArray.
Inductive overload := SizeMethod | ConstDistance | Distance | ArraySize.
Definition parameter_of (o : overload) : parameter :=
  match o with SizeMethod | ConstDistance => ConstIterable | Distance => Iterable | ArraySize => ConstArray end.
Definition has_size_method (c : collection) : bool := match size_method c with Some _ => true | None => false end.
(** size.h:25-34; 36-45; 47-56; 58-63.  [constant]: the argument is constant (it is always an lvalue). *)
Definition viable (constant : bool) (c : collection) (o : overload) : bool :=
  match o with
  | SizeMethod => has_size_method c
  | ConstDistance => negb (has_size_method c) && constant_begin c
  | Distance => negb (has_size_method c) && (negb constant || constant_begin c)
  | ArraySize => is_array c
  end.
(** Is the first overload better?  A reference to something that is not constant is better for such an argument; else the more specialized
    template is: an array before const Iterable& before Iterable&. *)
Definition better (constant : bool) (a b : overload) : bool :=
  match parameter_of a, parameter_of b with
  | Iterable, (ConstIterable | ConstArray) => negb constant
  | ConstArray, Iterable | ConstIterable, Iterable => constant
  | ConstArray, ConstIterable => true
  | _, _ => false
  end.
Definition overload_eqb (a b : overload) : bool :=
  match a, b with SizeMethod, SizeMethod | ConstDistance, ConstDistance | Distance, Distance | ArraySize, ArraySize => true | _, _ => false end.
Definition size_overloads : list overload := [SizeMethod; ConstDistance; Distance; ArraySize].
Definition resolve (constant : bool) (c : collection) : option overload :=
  let candidates := filter (viable constant c) size_overloads in
  match filter (fun o => forallb (fun o' => overload_eqb o o' || better constant o o') candidates) candidates with [o] => Some o | _ => None end.
(** None: the call does not compile. *)
Definition size (constant : bool) (c : collection) : option nat :=
  match resolve constant c with
  | Some SizeMethod => size_method c
  | Some _ => Some (List.length (elements c))
  | None => None
  end.
End Size.

(** ** The entry points *)
Inductive category := Forward | Bidirectional | RandomAccess.
Definition rank (c : category) : nat := match c with Forward => 0 | Bidirectional => 1 | RandomAccess => 2 end.
Definition derives (c base : category) : bool := Nat.leb (rank base) (rank c).

Inductive source := NotNeeded | FromCollection | FromDistance | FromDifference.
Record sorter := Sorter { name : string; declared : category; for_collection : option source; for_iterators : source }.

(** sorter_traits.h:271-291; None: the adapted sorter has no category. *)
Definition bidir_at_best_tag (adapted : option category) : category :=
  match adapted with None => Bidirectional | Some c => if derives c Bidirectional then c else Bidirectional end.

Local Open Scope string_scope.
(** sorters/*.h; the lines of the categories: cartesian_tree_sorter.h:86, counting_sorter.h:86, insertion_sorter.h:59, mel_sorter.h:86, merge_sorter.h:86,
    quick_merge_sorter.h:86, quick_sorter.h:86, selection_sorter.h:59, slab_sorter.h:86, splay_sorter.h:85; those of the sizes: lines 54 and 78 (53
    and 77 in splay_sorter.h).  The others take two random-access iterators: adaptive_shivers_sorter.h:59, d_ary_heap_sorter.h:60, and so on. *)
Definition sorters : list sorter :=
  [Sorter "cartesian_tree_sorter" Forward (Some FromCollection) FromDistance;
   Sorter "counting_sorter" Forward None NotNeeded;
   Sorter "insertion_sorter" Bidirectional None NotNeeded;
   Sorter "mel_sorter" Forward (Some FromCollection) FromDistance;
   Sorter "merge_sorter" Forward (Some FromCollection) FromDistance;
   Sorter "quick_merge_sorter" Forward (Some FromCollection) FromDistance;
   Sorter "quick_sorter" Forward (Some FromCollection) FromDistance;
   Sorter "selection_sorter" Forward None NotNeeded;
   Sorter "slab_sorter" Bidirectional (Some FromCollection) FromDistance;
   Sorter "splay_sorter" Forward (Some FromCollection) FromDistance] ++
  map (fun n => Sorter n RandomAccess None NotNeeded)
    ["adaptive_shivers_sorter"; "block_sorter"; "d_ary_heap_sorter"; "grail_sorter"; "heap_sorter"; "merge_insertion_sorter"; "pdq_sorter";
     "poplar_sorter"; "ska_sorter"; "smooth_sorter"; "spin_sorter"; "std_sorter"; "tim_sorter"; "wiki_sorter"].
(** drop_merge_adapter.h:47-67, indirect_adapter.h:160-199, out_of_place_adapter.h:83-103, schwartz_adapter.h:118-139 (the category is that of the
    adapted sorter), split_adapter.h:47-67, verge_adapter.h:48-94 *)
Definition adapters (adapted : option category) : list sorter :=
  [Sorter "drop_merge_adapter" Bidirectional None NotNeeded;
   Sorter "indirect_adapter" Forward (Some FromCollection) FromDistance;
   Sorter "out_of_place_adapter" Forward (Some FromCollection) FromDistance;
   Sorter "schwartz_adapter" (match adapted with Some c => c | None => Forward end) (Some FromCollection) FromDistance;
   Sorter "split_adapter" (bidir_at_best_tag adapted) None NotNeeded;
   Sorter "verge_adapter" (bidir_at_best_tag adapted) (Some FromCollection) FromDifference].

(** Can the size be computed for iterators of this category? *)
Definition available (s : source) (c : category) : bool :=
  match s with FromDifference => derives c RandomAccess | _ => true end.
(** The static_assert, and the size. *)
Definition sorts_iterators (s : sorter) (c : category) : bool := derives c (declared s) && available (for_iterators s) c.
(** sorter_facade.h:170-195: without an overload for collections, begin and end are used. *)
Definition sorts_collection (s : sorter) (c : category) : bool :=
  derives c (declared s) && available (match for_collection s with Some o => o | None => for_iterators s end) c.

(** ** verge_adapter.h:86: three arguments, evaluated in any order, two of which move the iterators that the third reads. *)
Inductive argument := MoveFirst | MoveLast | Difference.
(** [after] gives the position of an iterator that has been moved from. *)
Fixpoint evaluate (after : Z -> Z) (order : list argument) (first last : Z) : option Z :=
  match order with
  | [] => None
  | MoveFirst :: order => evaluate after order (after first) last
  | MoveLast :: order => evaluate after order first (after last)
  | Difference :: _ => Some (last - first)%Z
  end.
