(** adapters/container_aware_adapter.h: which algorithm a call runs, and what is_stable says about it.

    Simplifications: a function is a comparison or a projection, not both; the results are left out. *)
From Coq Require Import List Bool Arith.
From Verif Require Import Model.Facade.
Import ListNotations.

(** A function sort found by argument-dependent lookup, or the adapted sorter. *)
Inductive action := Dedicated (args : list fn) | Adapted (w : form) (args : list fn).
Inductive result := NotCallable | AmbiguousCall | Runs (a : action).

(** A comparison of the elements: projection_compare is one if its members are a comparison and a projection. *)
Definition compares (f : fn) : bool :=
  match f with
  | Fused c p => is_comparison c && is_projection p
  | _ => is_comparison f
  end.

Section Adapter.
(** [sort args]: a function sort for the adapted sorter, the collection and the functions is found, other than the fallback that returns nope_type
    (container_aware_adapter.h:25-54).  [accepts] and [adapted_is_stable] are about the adapted sorter. *)
Variables (sort : list fn -> bool) (accepts adapted_is_stable : form -> list fn -> bool).

(** container_aware_adapter.h:56-90 *)
Definition can_sort : bool := sort [].
Definition can_comparison_sort (c : fn) : bool := sort [c] && compares c.
Definition can_projection_sort (p : fn) : bool := sort [p] && is_projection p.
Definition can_comparison_projection_sort (c p : fn) : bool := sort [c; p] && (compares c && is_projection p).

(** container_aware_adapter.h:101-333, the conditions and the calls of the overloads, in the order of the file; all of them have template parameters
    only, so that none is more specialized than another.  The call in decltype must be well-formed. *)
Definition adapted (args : list fn) : bool := accepts Iterable args.
Definition overloads (args : list fn) : list (bool * action) :=
  match args with
  | [] =>
      [ (can_sort, Dedicated []);
        (negb can_sort && adapted [], Adapted Iterable []) ]
  | [f] =>
      [ (can_comparison_sort f, Dedicated [f]);
        (negb (is_projection f) && negb (can_comparison_sort f) && adapted [f], Adapted Iterable [f]);
        (negb (can_comparison_sort f) && can_projection_sort f, Dedicated [f]);
        (negb (can_projection_sort f) && can_comparison_projection_sort Less f, Dedicated [Less; f]);
        (negb (can_projection_sort f) && negb (can_comparison_projection_sort Less f) && can_comparison_sort (Fused Less f), Dedicated [Fused Less f]);
        (is_projection f && negb (can_projection_sort f) && negb (can_comparison_projection_sort Less f) && negb (can_comparison_sort (Fused Less f)) &&
         adapted [f], Adapted Iterable [f]) ]
  | [c; p] =>
      [ (can_comparison_projection_sort c p, Dedicated [c; p]);
        (negb (can_comparison_projection_sort c p) && can_comparison_sort (Fused c p), Dedicated [Fused c p]);
        (negb (can_comparison_projection_sort c p) && negb (can_comparison_sort (Fused c p)) && adapted [c; p], Adapted Iterable [c; p]) ]
  | _ => []
  end.
Definition select (l : list (bool * action)) : result :=
  match filter fst l with
  | [] => NotCallable
  | [(_, a)] => Runs a
  | _ => AmbiguousCall
  end.
Definition container_aware (args : list fn) : result := select (overloads args).

(** With a pair of iterators: there is no overload for them, but the first iterator is taken for the collection, the second one for the comparison, and a
    function for the projection (container_aware_adapter.h:144-163 and 316-333: their conditions hold since an iterator is not a projection).  The first
    parameter is an lvalue reference, and there are at most three. *)
Definition container_aware_iterators (first_is_lvalue : bool) (args : list fn) : result :=
  if first_is_lvalue && (length args <=? 1) && accepts Iterators args then Runs (Adapted Iterators args) else NotCallable.

(** The same overloads with Stability = true: false for a function sort, what is_stable says about the adapted sorter otherwise
    (container_aware_adapter.h:352-357). *)
Definition container_aware_is_stable (args : list fn) : bool :=
  match container_aware args with
  | Runs (Adapted w args) => adapted_is_stable w args
  | _ => false
  end.
End Adapter.
