(** C78: container_aware_adapter. *)
From Coq Require Import List Bool Arith.
From Verif Require Import Model.Facade Spec.Facade Proofs.FacadeCalls Model.ContainerAdapter Spec.ContainerAdapter Proofs.ContainerAdapter.
Import ListNotations.

(** Every adapted sorter, every collection, whatever functions sort exist for them: the dedicated algorithm is used if it accepts the call or one that
    stands for it, the closest one first; otherwise the adapted sorter is, with the arguments of the call.  Never ambiguous. *)
Theorem C78_container_aware_choice :
  forall (sort : list fn -> bool) (accepts : form -> list fn -> bool) (cpp20 : bool) (args : list fn), valid_call cpp20 args = true ->
    container_aware sort accepts args =
    match find sort (dedicated_calls args) with
    | Some a => Runs (Dedicated a)
    | None => if accepts Iterable args then Runs (Adapted Iterable args) else NotCallable
    end.
Proof. exact container_aware_eq. Qed.
Print Assumptions C78_container_aware_choice.

(** Whatever runs is asked for the order that the call asks for. *)
Theorem C78_container_aware_order :
  forall (sort : list fn -> bool) (accepts : form -> list fn -> bool) (cpp20 : bool) (args : list fn) (a : action),
    valid_call cpp20 args = true -> container_aware sort accepts args = Runs a ->
    forall (A T : Type) (less_a cmp_a : A -> A -> bool) (less_t cmp_t : T -> T -> bool) (prj : A -> T),
      exists order, order_of less_a cmp_a less_t cmp_t prj args = Some order /\
        order_of less_a cmp_a less_t cmp_t prj (match a with Dedicated l | Adapted _ l => l end) = Some order.
Proof.
  intros sort accepts cpp20 args a V E A T less_a cmp_a less_t cmp_t prj. rewrite (container_aware_eq sort accepts cpp20 args V) in E.
  assert (In (match a with Dedicated l | Adapted _ l => l end) (alternatives args)) as HI.
  { destruct (find sort (dedicated_calls args)) as [l|] eqn:EF.
    - injection E as <-. apply find_some in EF as [EF _]. now apply dedicated_alternatives.
    - destruct (accepts Iterable args); [|discriminate]. injection E as <-. simpl. auto. }
  destruct (alternatives_order _ _ less_a cmp_a less_t cmp_t prj cpp20 _ _ V HI) as [H1 H2].
  destruct (order_of less_a cmp_a less_t cmp_t prj args) as [o|]; [|contradiction]. eauto.
Qed.
Print Assumptions C78_container_aware_order.

(** is_stable holds exactly when the adapted sorter runs and is_stable holds for that call of it. *)
Theorem C78_container_aware_is_stable :
  forall (sort : list fn -> bool) (accepts adapted_is_stable : form -> list fn -> bool) (cpp20 : bool) (args : list fn), valid_call cpp20 args = true ->
    (container_aware_is_stable sort accepts adapted_is_stable args = true <->
     container_aware sort accepts args = Runs (Adapted Iterable args) /\ adapted_is_stable Iterable args = true).
Proof.
  intros sort accepts ais cpp20 args V. unfold container_aware_is_stable. rewrite (container_aware_eq sort accepts cpp20 args V).
  destruct (find sort (dedicated_calls args)) as [l|]; [|destruct (accepts Iterable args)]; split; try discriminate; try tauto; intros [H _]; discriminate.
Qed.
Print Assumptions C78_container_aware_is_stable.

(** docs/Sorter-adapters.md: "When called with a pair of iterators, the resulting sorter uses the raw adapted sorter".  Not if the first iterator is a
    temporary, as in [sorter(collection.begin(), collection.end())], nor with a comparison and a projection. *)
Theorem C78_container_aware_iterators_refuted :
  forall accepts : form -> list fn -> bool, (forall args, accepts Iterators args = true) ->
    (forall args, container_aware_iterators accepts false args = NotCallable) /\
    (forall b c p, container_aware_iterators accepts b [c; p] = NotCallable) /\
    (forall args, length args <= 1 -> container_aware_iterators accepts true args = Runs (Adapted Iterators args)).
Proof.
  intros accepts HA. unfold container_aware_iterators. repeat split; auto.
  - intros [] c p; reflexivity.
  - intros args HL. rewrite HA. apply Nat.leb_le in HL. now rewrite HL.
Qed.
Print Assumptions C78_container_aware_iterators_refuted.

(** tests/adapters/container_aware_adapter.cpp: a class with a function sort that takes a comparison, and merge_sorter. *)
Example C78_case :
  let sort := fun args => match args with [] => true | [c] => compares c | _ => false end in
  let accepts := fun (_ : form) => single_overload true Iterators in
  map (container_aware sort accepts) [[]; [Cmp]; [Prj]; [Cmp; Prj]] =
    [Runs (Dedicated []); Runs (Dedicated [Cmp]); Runs (Dedicated [Fused Less Prj]); Runs (Dedicated [Fused Cmp Prj])] /\
  map (container_aware (fun _ => false) accepts) [[]; [Cmp]; [Cmp; Prj]] =
    [Runs (Adapted Iterable []); Runs (Adapted Iterable [Cmp]); Runs (Adapted Iterable [Cmp; Prj])].
Proof. split; reflexivity. Qed.
