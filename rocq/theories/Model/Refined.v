(** refined.h, and how sorter_facade.h uses it; the types that case_insensitive_less and its refined versions accept.

    Simplifications: a type is a number with qualifiers; the functions can be copied; no conversions between types; volatile is left out of
    the bindings; a sorter accepts every comparison that can be called with what the projection gives (sorter_traits.h:33-37). *)
From Coq Require Import Bool Arith.
From Verif Require Import Model.Branchless Model.MetricsTools.

Definition qtype := (qualifiers * nat)%type.
(** std::decay_t, for a type that is neither an array nor a function *)
Definition decay (T : qtype) : qtype := (unqualified, snd T).

(** What func.template refine<T>() gives, for a function object that is constant or not; None: there is no such method. *)
Definition refiner (R : Type) := bool -> qtype -> option R.
Inductive refinement (R : Type) := Refined (r : R) | Original | Ambiguous | NoOverload.
Arguments Refined {R}. Arguments Original {R}. Arguments Ambiguous {R}. Arguments NoOverload {R}.

Definition constant_expression (v : value_category) : bool := match v with ConstLvalue | ConstRvalue => true | _ => false end.
(** refined.h:36-46: the parameter is a copy, that is not constant. *)
Definition refined_first {R} (refine : refiner R) (T : qtype) : option R := refine false T.
(** refined.h:48-57: [Function] is deduced with the qualifiers of the argument.  True: the overload is viable. *)
Definition refined_second {R} (refine : refiner R) (T : qtype) (v : value_category) : bool :=
  match refine (constant_expression v) T with None => true | Some _ => false end.
(** Overload resolution: a parameter by value is neither better nor worse than a forwarding reference. *)
Definition refined {R} (refine : refiner R) (T : qtype) (v : value_category) : refinement R :=
  match refined_first refine T, refined_second refine T v with
  | Some r, false => Refined r
  | Some _, true => Ambiguous
  | None, true => Original
  | None, false => NoOverload
  end.
(** refined.h:59-62: the type only, for a type [Function] that is not constant. *)
Definition refined_t {R} (refine : refiner R) (T : qtype) : refinement R := refined refine (decay T) Lvalue.

(** case_insensitive_less.h:76-81, 104-111 and 127-134: [iterable] tells whether std::begin(t) is well-formed for t of this type. *)
Definition can_be_refined_for (iterable : nat -> bool) (T : qtype) : bool := iterable (snd T).
Definition refine_case_insensitive_less (iterable : nat -> bool) : refiner qtype :=
  fun _ T => if can_be_refined_for iterable T then Some T else None.

(** The types that const T& can be bound to: a reference T stays as it is. *)
Definition binds (T : qtype) (arg : value_category * nat) : bool :=
  Nat.eqb (snd T) (snd arg) &&
  match referenced (fst T) with
  | NoReference => true
  | LvalueReference | RvalueReference =>
      if is_const (fst T) then true else match fst arg with Lvalue => true | _ => false end
  end.
(** case_insensitive_less.h:123-126 with 42-43 and 54-55; 186-205 and 226-261: can the function compare two arguments like [arg]? *)
Definition compares (iterable : nat -> bool) (f : refinement qtype) (arg : value_category * nat) : bool :=
  match f with
  | Original => iterable (snd arg)
  | Refined T => binds T arg
  | _ => false
  end.

(** sorter_facade.h:552-566: the condition looks at refined_t, then the sorter is called with refined; [ref] is the type of *first. *)
Definition facade_function {R} (refine : refiner R) (ref : qtype) : refinement R := refined refine ref Rvalue.
Definition facade_compiles (iterable : nat -> bool) (ref : qtype) (projected : value_category * nat) : bool :=
  compares iterable (refined_t (refine_case_insensitive_less iterable) ref) projected &&
  compares iterable (facade_function (refine_case_insensitive_less iterable) ref) projected.
