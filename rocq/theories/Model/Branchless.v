(** utility/branchless_traits.h: the two traits, with their specializations in the rest of the library.

    Simplifications: std::ranges::less, std::ranges::greater, std::identity and function_constant are available (C++20); the template
    arguments of the adapters (flip_t, projection_compare, function_constant, the counters) are not qualified; a class of a member pointer is
    left out, since no specialization looks at it. *)
From Coq Require Import Bool Arith.

Inductive reference := NoReference | LvalueReference | RvalueReference.
Record qualifiers := Qualifiers { is_const : bool; is_volatile : bool; referenced : reference }.
Definition unqualified : qualifiers := Qualifiers false false NoReference.
Inductive type := Integral (n : nat) | FloatingPoint (n : nat) | NotArithmetic (n : nat).
Definition qualified_type := (qualifiers * type)%type.
Definition is_reference (T : qualified_type) : bool := match referenced (fst T) with NoReference => false | _ => true end.
(** detail/type_traits.h:236-243 *)
Definition remove_cvref (T : qualified_type) : qualified_type := (unqualified, snd T).
(** The disjunction of branchless_traits.h:70-77 and 125-132, for one of the two types. *)
Definition is_qualified (q : qualifiers) : bool :=
  is_const q || is_volatile q || match referenced q with NoReference => false | _ => true end.

(** std::is_integral, std::is_arithmetic: qualifiers are ignored, but a reference is neither. *)
Definition is_integral (T : qualified_type) : bool := negb (is_reference T) && match snd T with Integral _ => true | _ => false end.
Definition is_arithmetic (T : qualified_type) : bool := negb (is_reference T) && match snd T with NotArithmetic _ => false | _ => true end.

Definition reference_eqb (a b : reference) : bool :=
  match a, b with NoReference, NoReference | LvalueReference, LvalueReference | RvalueReference, RvalueReference => true | _, _ => false end.
Definition type_eqb (a b : type) : bool :=
  match a, b with Integral n, Integral m | FloatingPoint n, FloatingPoint m | NotArithmetic n, NotArithmetic m => Nat.eqb n m | _, _ => false end.
Definition same_type (T U : qualified_type) : bool :=
  Bool.eqb (is_const (fst T)) (is_const (fst U)) && Bool.eqb (is_volatile (fst T)) (is_volatile (fst U)) &&
  reference_eqb (referenced (fst T)) (referenced (fst U)) && type_eqb (snd T) (snd U).

Inductive projection :=
  | Identity | StdIdentity
  | MemberObjectPointer | MemberFunctionPointer
  | MemFn (p : projection)                        (* what std::mem_fn gives *)
  | ProjectionConstant (p : projection)           (* function_constant *)
  | ProjectionCounter (p : projection)
  | DataGetter
  | OtherProjection (n : nat).

Inductive comparison :=
  | StdLess (T : option qualified_type) | RangesLess      (* None: std::less<> *)
  | StdGreater (T : option qualified_type) | RangesGreater
  | PartialLess | PartialGreater | WeakLess | WeakGreater | TotalLess | TotalGreater
  | Flip (c : comparison)
  | ProjectionCompare (c : comparison) (p : projection)
  | ComparisonConstant (c : comparison)
  | ComparisonCounter (c : comparison)
  | OtherComparison (n : nat).

(** branchless_traits.h:95-117 *)
Definition is_member_object_pointer (p : projection) : bool := match p with MemberObjectPointer => true | _ => false end.
Definition projection_impl (p : projection) (T : qualified_type) : bool :=
  match p with
  | MemFn p => is_member_object_pointer p
  | StdIdentity => true
  | p => is_member_object_pointer p
  end.

(** branchless_traits.h:119-141 if the projection is not qualified; functional.h:129-132, 411-417; schwartz_adapter.h:46-51;
    metrics/projections.h:65-77.  The primary template is used if there is no specialization: it removes the qualifiers of [T]. *)
Fixpoint branchless_projection (p : projection) (T : qualified_type) : bool :=
  match p with
  | Identity => true
  | ProjectionConstant p => branchless_projection p T
  | ProjectionCounter p => branchless_projection p T
  | DataGetter => true
  | p => projection_impl p (remove_cvref T)
  end.
(** The specializations are for projections that are not qualified: the primary template is used for the others. *)
Definition is_probably_branchless_projection (P : qualifiers * projection) (T : qualified_type) : bool :=
  if is_qualified (fst P) then branchless_projection (snd P) (remove_cvref T) else branchless_projection (snd P) T.

(** branchless_traits.h:25-63 *)
Definition comparison_impl (c : comparison) (T : qualified_type) : bool :=
  match c with
  | StdLess None | RangesLess | StdGreater None | RangesGreater => is_arithmetic T
  | StdLess (Some U) | StdGreater (Some U) => same_type U T && is_arithmetic T
  | _ => false
  end.

Section Traits.
(** invoke_result_t of a projection and a type. *)
Variable invoke_result : projection -> qualified_type -> qualified_type.

(** branchless_traits.h:67-85 if the comparison is not qualified; total_less.h:82-85, total_greater.h:82-85, weak_less.h:81-84,
    weak_greater.h:81-84, partial_less.h:73-76, partial_greater.h:73-76; flip.h:193-196; projection_compare.h:192-201;
    functional.h:404-410; detail/comparison_counter.h:52-61. *)
Fixpoint branchless_comparison (c : comparison) (T : qualified_type) : bool :=
  match c with
  | PartialLess | PartialGreater => is_arithmetic T
  | WeakLess | WeakGreater | TotalLess | TotalGreater => is_integral T
  | Flip c => branchless_comparison c T
  | ProjectionCompare c p => is_probably_branchless_projection (unqualified, p) T && branchless_comparison c (invoke_result p T)
  | ComparisonConstant c => branchless_comparison c T
  | ComparisonCounter c => branchless_comparison c T
  | c => comparison_impl c (remove_cvref T)
  end.
Definition is_probably_branchless_comparison (C : qualifiers * comparison) (T : qualified_type) : bool :=
  if is_qualified (fst C) then branchless_comparison (snd C) (remove_cvref T) else branchless_comparison (snd C) T.

(** detail/iterator_traits.h:50-51, from the type of the dereferenced iterator *)
Definition projected_t (ref : qualified_type) (p : projection) : qualified_type := remove_cvref (invoke_result p ref).
(** pdqsort.h:436-438, probes/enc.h:40-42 *)
Definition is_branchless (c : comparison) (p : projection) (ref value : qualified_type) : bool :=
  is_probably_branchless_comparison (unqualified, c) (projected_t ref p) && is_probably_branchless_projection (unqualified, p) value.
End Traits.
