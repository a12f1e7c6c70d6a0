(** Which functions are branchless, from docs/Miscellaneous-utilities.md:91-128 and 224, docs/Comparators.md and docs/Comparator-adapters.md:
    a table for types without qualifiers.  The arguments are the names of Model.Branchless, not its traits. *)
From Coq Require Import Bool.
From Verif Require Import Model.Branchless.

Definition integral (t : type) : Prop := exists n, t = Integral n.
Definition arithmetic (t : type) : Prop := integral t \/ exists n, t = FloatingPoint n.
Definition no_qualifiers (t : type) : qualified_type := (Qualifiers false false NoReference, t).

Inductive documented_projection : projection -> Prop :=
  | Doc_identity : documented_projection Identity
  | Doc_std_identity : documented_projection StdIdentity
  | Doc_data_getter : documented_projection DataGetter
  | Doc_member_object : documented_projection MemberObjectPointer (* the documentation has member function pointers instead *)
  | Doc_mem_fn : documented_projection (MemFn MemberObjectPointer)
  | Doc_projection_constant : forall p, documented_projection p -> documented_projection (ProjectionConstant p)
  | Doc_projection_counter : forall p, documented_projection p -> documented_projection (ProjectionCounter p).

(** [result] gives the type of the value that a projection gives, without qualifiers. *)
Inductive documented_comparison (result : projection -> type -> type) : comparison -> type -> Prop :=
  | Doc_less : forall t, arithmetic t -> documented_comparison result (StdLess None) t
  | Doc_less_of : forall t, arithmetic t -> documented_comparison result (StdLess (Some (no_qualifiers t))) t
  | Doc_ranges_less : forall t, arithmetic t -> documented_comparison result RangesLess t
  | Doc_greater : forall t, arithmetic t -> documented_comparison result (StdGreater None) t
  | Doc_greater_of : forall t, arithmetic t -> documented_comparison result (StdGreater (Some (no_qualifiers t))) t
  | Doc_ranges_greater : forall t, arithmetic t -> documented_comparison result RangesGreater t
  | Doc_partial_less : forall t, arithmetic t -> documented_comparison result PartialLess t
  | Doc_partial_greater : forall t, arithmetic t -> documented_comparison result PartialGreater t
  | Doc_weak_less : forall t, integral t -> documented_comparison result WeakLess t
  | Doc_weak_greater : forall t, integral t -> documented_comparison result WeakGreater t
  | Doc_total_less : forall t, integral t -> documented_comparison result TotalLess t
  | Doc_total_greater : forall t, integral t -> documented_comparison result TotalGreater t
  | Doc_flip : forall c t, documented_comparison result c t -> documented_comparison result (Flip c) t
  | Doc_projection_compare : forall c p t, documented_projection p -> documented_comparison result c (result p t) ->
      documented_comparison result (ProjectionCompare c p) t
  | Doc_comparison_constant : forall c t, documented_comparison result c t -> documented_comparison result (ComparisonConstant c) t
  | Doc_comparison_counter : forall c t, documented_comparison result c t -> documented_comparison result (ComparisonCounter c) t.

(** A comparison that contains none of the six order comparators. *)
Fixpoint no_order (c : comparison) : Prop :=
  match c with
  | PartialLess | PartialGreater | WeakLess | WeakGreater | TotalLess | TotalGreater => False
  | Flip c | ProjectionCompare c _ | ComparisonConstant c | ComparisonCounter c => no_order c
  | _ => True
  end.
(** A comparison that contains no projection_compare. *)
Fixpoint no_projection (c : comparison) : Prop :=
  match c with
  | ProjectionCompare _ _ => False
  | Flip c | ComparisonConstant c | ComparisonCounter c => no_projection c
  | _ => True
  end.
