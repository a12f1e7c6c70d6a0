(** container_aware_adapter. *)
From Coq Require Import List Bool Arith.
From Verif Require Import Model.Facade Spec.Facade Model.ContainerAdapter Spec.ContainerAdapter Proofs.Facade.
Import ListNotations.

Lemma container_aware_eq : forall sort accepts cpp20 args, valid_call cpp20 args = true ->
  container_aware sort accepts args =
  match find sort (dedicated_calls args) with
  | Some a => Runs (Dedicated a)
  | None => if accepts Iterable args then Runs (Adapted Iterable args) else NotCallable
  end.
Proof.
  intros sort accepts cpp20 args V.
  destruct (valid_cases _ _ V) as [-> | [(f & -> & Hf & _) | (c & p & -> & Hc & Hp & _)]]; clear V.
  - cbn. unfold can_sort, adapted, container_aware, select. cbn. unfold can_sort, adapted. destruct (sort []), (accepts Iterable []); reflexivity.
  - cbn [In] in Hf. repeat (destruct Hf as [<- | Hf]); try contradiction;
      unfold container_aware, select, overloads, can_comparison_sort, can_projection_sort, can_comparison_projection_sort, adapted; cbn;
      rewrite ?andb_true_r, ?andb_false_r; cbn; repeat (match goal with |- context [sort ?a] => destruct (sort a) end; cbn);
      try (match goal with |- context [accepts Iterable ?a] => destruct (accepts Iterable a) end); reflexivity.
  - cbn [In] in Hc, Hp. repeat (destruct Hc as [<- | Hc]); try contradiction; repeat (destruct Hp as [<- | Hp]); try contradiction;
      unfold container_aware, select, overloads, can_comparison_sort, can_comparison_projection_sort, adapted; cbn;
      rewrite ?andb_true_r, ?andb_false_r; cbn; repeat (match goal with |- context [sort ?a] => destruct (sort a) end; cbn);
      try (match goal with |- context [accepts Iterable ?a] => destruct (accepts Iterable a) end); reflexivity.
Qed.
Lemma dedicated_alternatives : forall args a, In a (dedicated_calls args) -> In a (alternatives args).
Proof.
  intros args a H. unfold dedicated_calls, alternatives in *. destruct args as [|f [|g [|]]]; simpl in *; try tauto.
  destruct (is_comparison f); simpl in *; tauto.
Qed.
