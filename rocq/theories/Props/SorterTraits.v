(** C92: the traits of the sorters, and rebind_iterator_category. *)
From Coq Require Import List Bool Arith Lia.
From Verif Require Import Model.Adapters Model.SorterTraits Props.Adapters.
Import ListNotations.

(** "if one of the types above doesn't exist in the passed sorter, it won't exist in the corresponding sorter_traits specialization either"
    (docs/Sorter-traits.md:120), and each is independent of the other. *)
Theorem C92_sorter_traits :
  forall s : sorter_class, specialization s = None ->
    iterator_category (sorter_traits s) = iterator_category (members s) /\ is_always_stable (sorter_traits s) = is_always_stable (members s).
Proof. intros s E. unfold sorter_traits. now rewrite E. Qed.
Print Assumptions C92_sorter_traits.

(** "A compile-time error occurs when one tries to rebind a sorter to a less strict iterator category than its own", and only then; the new
    sorter has the new category. *)
Theorem C92_rebind_category :
  forall (s : sorter_class) (own c : category),
    iterator_category (sorter_traits s) = Some own ->
    (category_value c < category_value own -> rebind_iterator_category s c = None) /\
    (category_value own <= category_value c ->
     exists r, rebind_iterator_category s c = Some r /\ iterator_category (sorter_traits r) = Some c).
Proof.
  intros s own c E. unfold rebind_iterator_category, is_base_of. rewrite E. split; intros H.
  - apply Nat.leb_gt in H. now rewrite H.
  - apply Nat.leb_le in H. rewrite H. eexists. split; reflexivity.
Qed.
Print Assumptions C92_rebind_category.

(** "The sorter above will pick foo_sorter for forward iterators, but bar_sorter for bidirectional and random-access iterators": for all categories,
    and in either order. *)
Theorem C92_rebind_in_hybrid :
  forall (foo bar rebound : sorter_class) (own c it : category),
    iterator_category (sorter_traits foo) = Some own -> iterator_category (sorter_traits bar) = Some own ->
    category_value own < category_value c -> rebind_iterator_category bar c = Some rebound ->
    category_value own <= category_value it ->
    forall d, iterator_category (sorter_traits rebound) = Some d ->
    hybrid_dispatch [(own, true); (d, true)] it = Some (if category_value c <=? category_value it then 1 else 0) /\
    hybrid_dispatch [(d, true); (own, true)] it = Some (if category_value c <=? category_value it then 0 else 1).
Proof.
  intros foo bar rebound own c it F B L R I d D.
  destruct (C92_rebind_category bar own c B) as [_ H]. destruct H as (r & R' & C); [lia|]. rewrite R in R'. injection R' as <-.
  rewrite C in D. injection D as <-.
  destruct (category_value c <=? category_value it) eqn:E; [apply Nat.leb_le in E|apply Nat.leb_gt in E];
    split; apply C48_hybrid_dispatch_selects; eexists; (split; [reflexivity|]); (split; [lia|]);
    intros [|[|[|j]]] e He HC N; try (now elim N); try discriminate; injection He as <-; try lia; auto.
Qed.
Print Assumptions C92_rebind_in_hybrid.

(** "This class allows to get a sorter similar to the one passed": it is always stable if the sorter says so in its class. *)
Theorem C92_rebind_stability_partial :
  forall (s r : sorter_class) (c : category),
    specialization s = None -> rebind_iterator_category s c = Some r ->
    is_always_stable (sorter_traits r) = is_always_stable (sorter_traits s) /\
    (stable_calls s = None -> forall call, is_stable r call = is_stable s call).
Proof.
  intros s r c E R. unfold rebind_iterator_category in R. destruct (SorterTraits.iterator_category _); [|discriminate].
  destruct (is_base_of _ _); [|discriminate]. injection R as <-. unfold is_stable, sorter_traits. simpl. rewrite E. split; auto. intros ->. auto.
Qed.
Print Assumptions C92_rebind_stability_partial.

(** Stability that is in a specialization of sorter_traits, "the main source of truth" (docs/Sorter-traits.md:122), is lost, as for the fixed-size
    sorters: is_stable is ill-formed. *)
Theorem C92_rebind_traits_refuted :
  forall (own c : category) (stable : bool), category_value own <= category_value c ->
    exists s r, is_always_stable (sorter_traits s) = Some stable /\ rebind_iterator_category s c = Some r /\
      is_always_stable (sorter_traits r) = None /\ forall call, is_stable r call = None.
Proof.
  intros own c stable H. exists (SorterClass (Traits None None) (Some (Traits (Some own) (Some stable))) None). eexists.
  unfold rebind_iterator_category, is_base_of. simpl. apply Nat.leb_le in H. rewrite H. repeat split.
Qed.
Print Assumptions C92_rebind_traits_refuted.

(** So are the specializations of is_stable: self_sort_adapter is stable for a list, not so with another category. *)
Theorem C92_rebind_is_stable_refuted :
  forall (own c : category) (call : nat), category_value own <= category_value c ->
    exists s r, specialization s = None /\ is_stable s call = Some true /\ rebind_iterator_category s c = Some r /\ is_stable r call = Some false.
Proof.
  intros own c call H. exists (SorterClass (Traits (Some own) (Some false)) None (Some (fun _ => true))). eexists.
  unfold rebind_iterator_category, is_base_of. simpl. apply Nat.leb_le in H. rewrite H. repeat split.
Qed.
Print Assumptions C92_rebind_is_stable_refuted.

(** A forward sorter that is always stable, for bidirectional iterators; a bidirectional one, for forward iterators. *)
Example C92_case :
  let s := SorterClass (Traits (Some Forward) (Some true)) None None in
  let b := SorterClass (Traits (Some Bidirectional) None) None None in
  (exists r, rebind_iterator_category s Bidirectional = Some r /\ iterator_category (sorter_traits r) = Some Bidirectional /\ is_stable r 0 = Some true) /\
  rebind_iterator_category b Forward = None /\ is_always_stable (sorter_traits b) = None /\
  hybrid_dispatch [(Forward, true); (Bidirectional, true)] Forward = Some 0 /\ hybrid_dispatch [(Forward, true); (Bidirectional, true)] RandomAccess = Some 1.
Proof. repeat split. eexists. repeat split. Qed.
