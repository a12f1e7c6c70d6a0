(** Proofs about default_sorter. *)
From Coq Require Import List Arith Bool Lia.
From Verif Require Import Spec.Order Lang.Mem Spec.Sorts Spec.Default Model.Rotate Model.Buffer Model.Merge Model.Fixed Model.Quick Model.Pdq Model.Default
  Proofs.MergeProps Props.Fixed Props.Quick Props.Merge.
From Verif Require Model.Adapters Model.Facade Model.SelfSort.
Import ListNotations.

Section Proofs.
Context {A T : Type}.
Variables (comp : T -> T -> bool) (proj : A -> T) (lenient branchless : bool) (member : range_prog A).

Lemma small_arrays_eq : forall o,
  small_arrays comp proj o =
  match o with Array n => if n <=? 13 then Some (low_comparisons_sorter comp proj n) else None | _ => None end.
Proof.
  destruct o as [| |n| |]; auto. unfold small_arrays, Adapters.small_array_adapter. destruct (Nat.leb_spec n 13).
  - replace (existsb (Nat.eqb n) (seq 0 14)) with true; auto. symmetry. apply existsb_exists. exists n. split; [apply in_seq; lia|apply Nat.eqb_refl].
  - replace (existsb (Nat.eqb n) (seq 0 14)) with false; auto. symmetry. apply not_true_is_false. intros E.
    apply existsb_exists in E as (k & Hk & Ek). apply in_seq in Hk. apply Nat.eqb_eq in Ek. lia.
Qed.

Definition adapted (o : object) : range_prog A :=
  match o with
  | Array n => if n <=? 13 then low_comparisons_sorter comp proj n else pdq_sorter comp proj lenient branchless
  | _ => match iterators o with
         | RandomAccess => pdq_sorter comp proj lenient branchless
         | it => quick_sorter comp proj (bidirectional it)
         end
  end.

Lemma hybrid_eq : forall o, hybrid comp proj lenient branchless o = Program (adapted o).
Proof.
  intros o. unfold hybrid. rewrite small_arrays_eq. unfold adapted.
  destruct o as [| |n|[]|[]]; try reflexivity. destruct (n <=? 13); reflexivity.
Qed.

Lemma accepts_proper : forall w args, proper_call args <-> accepts w args = true.
Proof.
  intros w [|f [|g [|h l]]]; simpl; try tauto.
  - now rewrite orb_true_iff.
  - now rewrite andb_true_iff.
  - split; [tauto|discriminate].
Qed.

Lemma default_eq : forall o args, proper_call args ->
  default_sorter comp proj lenient branchless member o args =
  match o, args with
  | (StdList | StdForwardList), [] => Program member
  | (StdList | StdForwardList), [f] => if Facade.is_comparison f then Program member else DoesNotCompile
  | _, _ => Program (adapted o)
  end.
Proof.
  intros o args HA. pose proof (proj1 (accepts_proper Facade.Iterable args) HA) as H1. pose proof (proj1 (accepts_proper Facade.Iterators args) HA) as H2.
  unfold default_sorter, run. destruct o as [| |n|it|it].
  - destruct args as [|f [|g [|h l]]]; try reflexivity.
    + cbn. destruct (Facade.is_comparison f); reflexivity.
    + unfold SelfSort.self_sort, SelfSort.select. cbn -[accepts hybrid]. rewrite H1. cbn -[hybrid]. apply hybrid_eq.
    + destruct HA.
  - destruct args as [|f [|g [|h l]]]; try reflexivity.
    + cbn. destruct (Facade.is_comparison f); reflexivity.
    + unfold SelfSort.self_sort, SelfSort.select. cbn -[accepts hybrid]. rewrite H1. cbn -[hybrid]. apply hybrid_eq.
    + destruct HA.
  - unfold SelfSort.self_sort, SelfSort.select. cbn -[accepts hybrid]. rewrite H1. cbn -[hybrid]. rewrite hybrid_eq. reflexivity.
  - unfold SelfSort.self_sort, SelfSort.select. cbn -[accepts hybrid]. rewrite H1. cbn -[hybrid]. rewrite hybrid_eq. reflexivity.
  - unfold SelfSort.self_sort_iterators. rewrite H2. apply hybrid_eq.
Qed.

Lemma improper : forall o args, ~ proper_call args -> default_sorter comp proj lenient branchless member o args = DoesNotCompile.
Proof.
  intros o args HA.
  assert (HF : forall w, accepts w args = false) by (intros w; apply not_true_is_false; intros E; apply HA; eapply accepts_proper; eauto).
  unfold default_sorter, run. destruct o as [| |n|it|it].
  1, 2: destruct args as [|f [|g l]]; [exfalso; apply HA; exact I| |];
    [cbn; destruct (Facade.is_comparison f) eqn:E; auto; exfalso; apply HA; left; auto|];
    unfold SelfSort.self_sort, SelfSort.select; cbn -[accepts hybrid]; rewrite HF; reflexivity.
  1, 2: unfold SelfSort.self_sort, SelfSort.select; cbn -[accepts hybrid]; rewrite HF; reflexivity.
  unfold SelfSort.self_sort_iterators. rewrite HF. reflexivity.
Qed.
End Proofs.

Section Sorts.
Context {A T : Type}.
Variables (comp : T -> T -> bool) (proj : A -> T) (branchless : bool).

Lemma adapted_sorts : forall o, strict_weak_order comp -> sorts_object o (by_proj comp proj) (adapted comp proj true branchless o).
Proof.
  intros o HC.
  assert (HQ : forall bidi, sorts (by_proj comp proj) (quick_sorter comp proj bidi)) by (intros; now apply C08_quick_sorter_sorts).
  assert (HP : sorts (by_proj comp proj) (pdq_sorter comp proj true branchless)) by now apply C10_pdq_sorter_sorts.
  destruct o as [| |n|[]|[]]; simpl; auto. destruct (Nat.leb_spec n 13).
  - now apply C29_low_comparisons_sorter_sorts.
  - intros pre xs post _. apply HP.
Qed.

Lemma adapted_permutes : forall lenient o,
  match o with Array n => n <= 13 | _ => iterators o <> RandomAccess end -> permutes_object o (adapted comp proj lenient branchless o).
Proof.
  intros lenient o HO.
  assert (HQ : forall bidi, permutes (quick_sorter comp proj bidi)) by (intros; apply C57_quick_sorter_permutes).
  destruct o as [| |n|[]|[]]; simpl in *; auto; try (now destruct HO). apply Nat.leb_le in HO as HE. rewrite HE.
  now apply C57_low_comparisons_sorter_permutes.
Qed.
End Sorts.
