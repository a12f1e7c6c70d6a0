(** C57: the sorters that are not safe when the comparator is no strict weak order. *)
From Coq Require Import List Arith.
From Verif Require Import Spec.Order Lang.Mem Spec.Sorts Model.Rotate Model.Pdq Model.Select Model.Slab Model.Counting Model.Wiki Proofs.Unsafe.
Import ListNotations.

(** pdq_sorter on 24 equivalent elements or more, with a comparator for which they are less than themselves (std::less_equal<>, say): the
    scan of the partition runs past the end of the collection. *)
Theorem C57_pdq_sorter_reflexive_comparator_undefined :
  forall (A T : Type) (comp : T -> T -> bool) (proj : A -> T) (a : A) (n : nat) (lenient branchless : bool),
    comp (proj a) (proj a) = true -> 24 <= n ->
    pdq_sorter comp proj lenient branchless 0 n (map Val (repeat a n)) = UB.
Proof. intros A T comp proj a n lenient branchless HR Hn. apply pdq_constant; auto. Qed.
Print Assumptions C57_pdq_sorter_reflexive_comparator_undefined.

Theorem C57_pdq_sorter_permutes_refuted :
  ~ (forall (A T : Type) (comp : T -> T -> bool) (proj : A -> T) (branchless : bool), permutes (pdq_sorter comp proj true branchless)).
Proof.
  intros H. destruct (H nat nat Nat.leb (fun x => x) true [] (repeat 7 24) []) as (ys & E & _). rewrite app_nil_r, repeat_length in E.
  change (length [] + 24) with 24 in E. change (length []) with 0 in E. rewrite app_nil_l in E.
  rewrite (C57_pdq_sorter_reflexive_comparator_undefined nat nat Nat.leb (fun x => x) 7 24 true true eq_refl (le_n _)) in E. discriminate.
Qed.
Print Assumptions C57_pdq_sorter_permutes_refuted.

(** The comparator is std::less_equal<>, all the elements are equal. *)
Theorem C57_slab_sorter_permutes_refuted :
  ~ (forall (A T : Type) (comp : T -> T -> bool) (proj : A -> T) (o : Buffer.oracle), permutes (slab_sorter comp proj RandomAccess true o)).
Proof. intros H. destruct (H nat nat Nat.leb (fun x => x) (fun _ => true) [] (repeat 0 33) []) as (ys & E & _). vm_compute in E. discriminate. Qed.
Print Assumptions C57_slab_sorter_permutes_refuted.

Theorem C57_wiki_sorter_permutes_refuted :
  ~ (forall (A T : Type) (comp : T -> T -> bool) (proj : A -> T) (junk : nat -> nat * nat * nat * nat) (buffer_size : nat -> nat),
       permutes (wiki_sorter comp proj true true junk ptrdiff buffer_size)).
Proof.
  intros H. destruct (H nat nat (fun x y => Nat.odd ((x + y * y + 1) / 3)) (fun x => x) (fun _ => (0, 0, 0, 0)) (fun _ => 0) [] (seq 0 16) []) as (ys & E & _).
  vm_compute in E. discriminate.
Qed.
Print Assumptions C57_wiki_sorter_permutes_refuted.

(** std::less_equal<> on 34 equal elements: detail/adaptive_quickselect.h:189-201 exchanges an element with itself, after which the two indices have passed
    each other and their equality never ends the loops. *)
Theorem C57_quick_merge_sorter_permutes_refuted :
  ~ (forall (A T : Type) (comp : T -> T -> bool) (proj : A -> T), permutes (quick_merge_sorter comp proj RandomAccess)) /\
  quick_merge_sorter Nat.leb (fun x => x) RandomAccess 0 34 (map Val (repeat 7 34)) = UB.
Proof.
  assert (quick_merge_sorter Nat.leb (fun x => x) RandomAccess 0 34 (map Val (repeat 7 34)) = UB) as E by (vm_compute; reflexivity).
  split; auto. intros H. destruct (H nat nat Nat.leb (fun x => x) [] (repeat 7 34) []) as (ys & E' & _). rewrite app_nil_r in E'.
  change (quick_merge_sorter Nat.leb (fun x => x) RandomAccess 0 34 (map Val (repeat 7 34)) = Ok tt ([] ++ map Val ys ++ [])) in E'. congruence.
Qed.
Print Assumptions C57_quick_merge_sorter_permutes_refuted.

(** With the strict order, the same collection is sorted. *)
Example C57_unsafe_case :
  pdq_sorter Nat.ltb (fun x => x) true true 0 24 (map Val (repeat 7 24)) = Ok tt (map Val (repeat 7 24)) /\ Nat.leb 7 7 = true.
Proof. split; vm_compute; reflexivity. Qed.
