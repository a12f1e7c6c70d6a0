(** C86: refined functions. *)
From Coq Require Import Bool Arith.
From Verif Require Import Model.Branchless Model.MetricsTools Model.Refined Proofs.Refined.

(** "it returns func.template refine<T>() if func has a valid refine method, and returns func otherwise" (docs/Refined-functions.md:23). *)
Theorem C86_refined_partial :
  forall (R : Type) (refine : refiner R) (T : qtype) (v : value_category),
    v = Lvalue \/ v = Rvalue \/ refine true T = refine false T ->
    (forall r, refine false T = Some r -> refined refine T v = Refined r) /\ (refine false T = None -> refined refine T v = Original).
Proof. intros R refine T v HV. rewrite refined_documented by auto. split; [intros r ->|intros ->]; reflexivity. Qed.
Print Assumptions C86_refined_partial.

(** With a function object that is constant and a method that is not, the call is ambiguous: it can give neither. *)
Theorem C86_refined_constant_refuted :
  forall (R : Type) (refine : refiner R) (T : qtype) (r : R) (v : value_category),
    refine false T = Some r -> refine true T = None -> v = ConstLvalue \/ v = ConstRvalue -> refined refine T v = Ambiguous.
Proof. intros R refine T r v H1 H2 [-> | ->]; unfold refined, refined_first, refined_second; simpl; now rewrite H1, H2. Qed.
Print Assumptions C86_refined_constant_refuted.

(** "this method is automatically called with the value_type of the passed iterator or container" (docs/Refined-functions.md:15): this holds
    if the reference type is the value type. *)
Theorem C86_facade_partial :
  forall (R : Type) (refine : refiner R) (ref : qtype),
    ref = (unqualified, snd ref) ->
    forall r, refine false (unqualified, snd ref) = Some r -> facade_function refine ref = Refined r /\ refined_t refine ref = Refined r.
Proof.
  intros R refine ref HE r H. unfold facade_function, refined_t, decay. rewrite !refined_documented by auto. rewrite H, HE, H. auto.
Qed.
Print Assumptions C86_facade_partial.

(** For an iterator that gives a reference, the method is called with the reference type, whatever it is; the condition of the overload looks
    at the value type. *)
Theorem C86_facade_value_type_refuted :
  (forall (R : Type) (refine : refiner R) (ref : qtype) (r : R), refine false ref = Some r -> facade_function refine ref = Refined r) /\
  (forall (R : Type) (refine : refiner R) (ref : qtype) (r : R),
     refine false (unqualified, snd ref) = Some r -> refined_t refine ref = Refined r).
Proof.
  split; intros R refine ref r H.
  - unfold facade_function. rewrite refined_documented by auto. now rewrite H.
  - unfold refined_t, decay. rewrite refined_documented by auto. now rewrite H.
Qed.
Print Assumptions C86_facade_value_type_refuted.

(** A sorter can be called with case_insensitive_less and a projection exactly if the elements are no sequences and the projection gives a
    sequence, or if the projection gives a variable of the type of the elements. *)
Theorem C86_case_insensitive_less_partial :
  forall (iterable : nat -> bool) (element : nat) (v : value_category) (projected : nat),
    let ref := (Qualifiers false false LvalueReference, element) in
    facade_compiles iterable ref (v, projected) = true <->
    (iterable element = false /\ iterable projected = true) \/ (iterable element = true /\ projected = element /\ v = Lvalue).
Proof.
  intros iterable element v projected ref. rewrite facade_compiles_iff. simpl. split.
  - intros [H|(H1 & H2 & [H|[H|H]])]; [now left|discriminate|discriminate|now right].
  - intros [H|(H1 & H2 & H)]; [now left|right; auto].
Qed.
Print Assumptions C86_case_insensitive_less_partial.

(** Strings projected to other strings, by value or as constants, or to sequences of another type, can be compared by case_insensitive_less, but
    not sorted with it; refined for the value type, it would accept the former. *)
Theorem C86_case_insensitive_less_refuted :
  forall (iterable : nat -> bool) (element projected : nat) (v : value_category),
    iterable element = true -> iterable projected = true -> projected <> element \/ v <> Lvalue ->
    let ref := (Qualifiers false false LvalueReference, element) in
    compares iterable Original (v, projected) = true /\
    facade_compiles iterable ref (v, projected) = false /\
    (projected = element -> compares iterable (facade_function (refine_case_insensitive_less iterable) (unqualified, element)) (v, projected) = true).
Proof.
  intros iterable element projected v HE HP HN ref. split; [exact HP|]. split.
  - apply not_true_is_false. intros H. apply facade_compiles_iff in H. simpl in H. rewrite HE in H.
    destruct H as [[H _]|(_ & H1 & [H|[H|H]])]; try discriminate. destruct HN as [HN|HN]; auto.
  - intros ->. unfold facade_function. rewrite refined_documented by auto. unfold refine_case_insensitive_less, can_be_refined_for. simpl.
    rewrite HE. unfold compares, binds. simpl. now rewrite Nat.eqb_refl.
Qed.
Print Assumptions C86_case_insensitive_less_refuted.

(** Types 0 and 1: std::string and a class with a name, type 2: std::vector<char>.  Objects sorted by name; strings sorted by a substring. *)
Example C86_case :
  let iterable (t : nat) := match t with 1 => false | _ => true end in
  let lvalue (t : nat) := (Qualifiers false false LvalueReference, t) in
  facade_compiles iterable (lvalue 1) (Lvalue, 0) = true /\ facade_compiles iterable (lvalue 0) (Lvalue, 0) = true /\
  facade_compiles iterable (lvalue 0) (Rvalue, 0) = false /\ facade_compiles iterable (lvalue 0) (ConstLvalue, 0) = false /\
  facade_compiles iterable (lvalue 0) (Lvalue, 2) = false /\
  facade_function (refine_case_insensitive_less iterable) (lvalue 0) = Refined (lvalue 0) /\
  refined_t (refine_case_insensitive_less iterable) (lvalue 0) = Refined (unqualified, 0).
Proof. repeat split. Qed.
