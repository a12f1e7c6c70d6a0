(** utility/metrics_tools.h: the class metrics; the functions on packs of detail/type_traits.h and detail/any_all.h.

    Simplifications: a type is a natural number; a metric is its tag and its value; the values have one type. *)
From Coq Require Import ZArith List Bool.
Import ListNotations.
Local Open Scope Z_scope.

(** detail/type_traits.h:366-388 *)
Fixpoint index_of (needle : nat) (haystack : list nat) : Z :=
  match haystack with
  | [] => -1
  | head :: tail => if Nat.eqb needle head then 0 else index_of needle tail + 1
  end.

(** detail/type_traits.h:342-359 *)
Fixpoint is_in_pack (value : nat) (values : list nat) : bool :=
  match values with
  | [] => false
  | val :: values => if Nat.eqb val value then true else is_in_pack value values
  end.

(** detail/any_all.h:12-38; None: there is no overload without arguments. *)
Fixpoint any_from (head : bool) (tail : list bool) : bool := match tail with [] => head | b :: tail => head || any_from b tail end.
Definition any (l : list bool) : option bool := match l with [] => None | head :: tail => Some (any_from head tail) end.
Fixpoint all_from (head : bool) (tail : list bool) : bool := match tail with [] => head | b :: tail => head && all_from b tail end.
Definition all (l : list bool) : option bool := match l with [] => None | head :: tail => Some (all_from head tail) end.

Section Metrics.
Context {V : Type}.
Definition metric := (nat * V)%type.
Definition metrics := list metric.

(** metrics_tools.h:275-301; None: std::tuple_element_t does not exist. *)
Definition get (idx : nat) (mm : metrics) : option metric := nth_error mm idx.
(** metrics_tools.h:306-332: the index is converted to std::size_t, a narrowing conversion if it is negative. *)
Definition get_tag (tag : nat) (mm : metrics) : option metric :=
  let idx := index_of tag (map fst mm) in if idx <? 0 then None else get (Z.to_nat idx) mm.
End Metrics.

(** metrics_tools.h:257-264: the constructors, called with one argument, a metrics. *)
Inductive value_category := Lvalue | ConstLvalue | Rvalue | ConstRvalue.
Inductive constructor := Copy | MoveConstructor | Variadic.
(** Binding of the parameter of each constructor: how good a match it is, the greater the better ([over.ics.rank]); a template comes last among equals. *)
Definition match_quality (c : constructor) (v : value_category) : option nat :=
  match c, v with
  | Copy, (Lvalue | ConstRvalue) => Some 0%nat
  | Copy, Rvalue => Some 0%nat
  | Copy, ConstLvalue => Some 2%nat
  | MoveConstructor, Rvalue => Some 2%nat
  | MoveConstructor, _ => None
  | Variadic, _ => Some 1%nat (* exact: above the copy constructor if it adds const, below a constructor that is as good and not a template *)
  end.
(** An explicit constructor is no candidate in a copy-initialization. *)
Definition candidates (direct : bool) : list constructor := if direct then [Copy; MoveConstructor; Variadic] else [Copy; MoveConstructor].
Definition best_constructor (direct : bool) (v : value_category) : constructor :=
  fold_left (fun best c =>
    match match_quality c v, match_quality best v with
    | Some q, Some q' => if (q' <? q)%nat then c else best
    | _, _ => best
    end) (candidates direct) Copy.
(** The tuple cannot be made from a metrics. *)
Definition copies (direct : bool) (v : value_category) : bool := match best_constructor direct v with Variadic => false | _ => true end.
