(** C85: is_probably_branchless_comparison and is_probably_branchless_projection. *)
From Coq Require Import Bool.
From Verif Require Import Model.Branchless Spec.Branchless Proofs.Branchless.

(** The trait for projections has the value of the table, whatever the qualifiers of the projection and of the type. *)
Theorem C85_projection :
  forall (q : qualifiers) (p : projection) (T : qualified_type), is_probably_branchless_projection (q, p) T = true <-> documented_projection p.
Proof. intros q p T. unfold is_probably_branchless_projection. cbn [fst snd]. destruct (is_qualified q); apply projection_table. Qed.
Print Assumptions C85_projection.

(** The trait for comparisons has the value of the table for the type without its qualifiers. *)
Theorem C85_comparison_partial :
  forall (invoke_result : projection -> qualified_type -> qualified_type) (result : projection -> type -> type),
    (forall p T, snd (invoke_result p T) = result p (snd T)) ->
    forall (q : qualifiers) (c : comparison) (T : qualified_type),
      no_order c \/ (no_projection c /\ (referenced (fst T) = NoReference \/ is_const q = true \/ is_volatile q = true \/ referenced q <> NoReference)) ->
      (is_probably_branchless_comparison invoke_result (q, c) T = true <-> documented_comparison result c (snd T)).
Proof.
  intros invoke_result result HR q c T HC. apply comparison_trait; auto. destruct HC as [HC|[HC HT]]; auto. right. split; auto.
  destruct HT as [HT|HT]; [left; unfold is_reference; now rewrite HT|right]. destruct q as [k v r]. simpl in HT. unfold is_qualified. simpl.
  destruct k, v, r; auto. destruct HT as [HT|[HT|HT]]; try discriminate. now destruct HT.
Qed.
Print Assumptions C85_comparison_partial.

(** "cv-qualified and reference-qualified versions of the same user-defined type will also be considered to produce branchless code"
    (docs/Miscellaneous-utilities.md:126): not references, for the six order comparators, unless the comparator is itself qualified. *)
Theorem C85_reference_refuted :
  forall (invoke_result : projection -> qualified_type -> qualified_type) (c : comparison) (n : nat),
    c = PartialLess \/ c = PartialGreater \/ c = WeakLess \/ c = WeakGreater \/ c = TotalLess \/ c = TotalGreater ->
    let trait := is_probably_branchless_comparison invoke_result in
    let value := Qualifiers false false NoReference in let lvalue := Qualifiers false false LvalueReference in
    let constant := Qualifiers true false NoReference in
    trait (value, c) (value, Integral n) = true /\ trait (value, c) (lvalue, Integral n) = false /\ trait (constant, c) (lvalue, Integral n) = true.
Proof. intros invoke_result c n [->|[->|[->|[->|[->| ->]]]]]; repeat split. Qed.
Print Assumptions C85_reference_refuted.

(** "projection_compare is considered branchless when the projection it wraps is considered branchless and the comparison it wraps is
    considered branchless when called with the result of the projection" (docs/Comparator-adapters.md:140): utility::identity gives a
    reference, so that this is lost with total_less, although both parts are branchless. *)
Theorem C85_projection_compare_refuted :
  forall (invoke_result : projection -> qualified_type -> qualified_type) (n : nat),
    let value := Qualifiers false false NoReference in
    invoke_result Identity (value, Integral n) = (Qualifiers false false RvalueReference, Integral n) ->
    is_probably_branchless_projection (value, Identity) (value, Integral n) = true /\
    is_probably_branchless_comparison invoke_result (value, TotalLess) (value, Integral n) = true /\
    is_probably_branchless_comparison invoke_result (value, ProjectionCompare TotalLess Identity) (value, Integral n) = false.
Proof. intros invoke_result n value H. repeat split. unfold is_probably_branchless_comparison. simpl. now rewrite H. Qed.
Print Assumptions C85_projection_compare_refuted.

(** "Any type that satisfies std::is_member_function_pointer" (docs/Miscellaneous-utilities.md:124). *)
Theorem C85_member_function_pointer_refuted :
  forall (q : qualifiers) (T : qualified_type),
    is_probably_branchless_projection (q, MemberFunctionPointer) T = false /\ is_probably_branchless_projection (q, MemberObjectPointer) T = true.
Proof. intros [[] [] []] T; repeat split. Qed.
Print Assumptions C85_member_function_pointer_refuted.

(** pdqsort and enc use the branchless algorithm exactly for the pairs of the table: the comparison is looked up for what the projection gives,
    whatever kind of reference the iterator and the projection give. *)
Theorem C85_algorithms_partial :
  forall (invoke_result : projection -> qualified_type -> qualified_type) (result : projection -> type -> type),
    (forall p T, snd (invoke_result p T) = result p (snd T)) ->
    forall (c : comparison) (p : projection) (ref value : qualified_type), no_order c \/ no_projection c ->
      (is_branchless invoke_result c p ref value = true <-> documented_comparison result c (result p (snd ref)) /\ documented_projection p).
Proof. intros invoke_result result HR c p ref value. now apply branchless_algorithm. Qed.
Print Assumptions C85_algorithms_partial.

(** std::string elements (type 0) projected to their size, with flip(total_less); a comparison with a projection, without an order comparator. *)
Example C85_case :
  let invoke_result (p : projection) (T : qualified_type) : qualified_type :=
    match p with MemberObjectPointer => (Qualifiers false false LvalueReference, Integral 0) | Identity => (Qualifiers false false RvalueReference, snd T) | _ => T end in
  let result (p : projection) (t : type) := match p with MemberObjectPointer => Integral 0 | _ => t end in
  (forall p T, snd (invoke_result p T) = result p (snd T)) /\
  is_branchless invoke_result (Flip TotalLess) MemberObjectPointer (Qualifiers false false LvalueReference, NotArithmetic 0) (unqualified, NotArithmetic 0) = true /\
  is_branchless invoke_result (StdLess None) Identity (Qualifiers false false LvalueReference, NotArithmetic 0) (unqualified, NotArithmetic 0) = false /\
  is_probably_branchless_comparison invoke_result (unqualified, ProjectionCompare (StdLess None) MemberObjectPointer) (Qualifiers true false LvalueReference, NotArithmetic 0) = true /\
  is_probably_branchless_comparison invoke_result (unqualified, StdLess (Some (Qualifiers true false NoReference, Integral 1))) (unqualified, Integral 1) = false.
Proof. cbv zeta. repeat split. now intros []. Qed.
