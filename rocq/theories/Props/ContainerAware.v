(** C63 to C66: container_aware_adapter with the insertion, selection, merge and mel sorters. *)
From Coq Require Import List Arith Permutation Lia Bool.
From Verif Require Import Spec.Order Lang.Lists Spec.Lists Model.ContainerAware Proofs.Examples Proofs.ContainerAware Proofs.ContainerMel.
Import ListNotations.

Theorem C63_container_aware_insertion_sorts_stably :
  forall (A T : Type) (comp : T -> T -> bool) (proj : A -> T), strict_weak_order comp ->
    sorts_list_stably (by_proj comp proj) (list_insertion_sort comp proj) /\ sorts_list_stably (by_proj comp proj) (flist_insertion_sort comp proj).
Proof. intros A T comp proj HC. split; [now apply list_insertion_sort_stable | now apply flist_insertion_sort_stable]. Qed.
Print Assumptions C63_container_aware_insertion_sorts_stably.

Theorem C64_container_aware_selection_sorts_stably :
  forall (A T : Type) (comp : T -> T -> bool) (proj : A -> T), strict_weak_order comp ->
    sorts_list_stably (by_proj comp proj) (list_selection_sort comp proj) /\ sorts_list_stably (by_proj comp proj) (flist_selection_sort comp proj).
Proof. intros A T comp proj HC. split; [now apply list_selection_sort_stable | now apply flist_selection_sort_stable]. Qed.
Print Assumptions C64_container_aware_selection_sorts_stably.

(** The full claim would be [sorts_list_stably]; it is false, as the next theorems show: equivalent elements are always reversed. *)
Theorem C65_container_aware_merge_sorts_partial :
  forall (A T : Type) (comp : T -> T -> bool) (proj : A -> T), strict_weak_order comp ->
    sorts_list_reversing_ties (by_proj comp proj) (list_merge_sort comp proj) /\ sorts_list_reversing_ties (by_proj comp proj) (flist_merge_sort comp proj).
Proof. intros A T comp proj HC. split; [now apply list_merge_sort_reverses | now apply flist_merge_sort_reverses]. Qed.
Print Assumptions C65_container_aware_merge_sorts_partial.

(** Two nodes with the same value: the first becomes the second. *)
Theorem C65_container_aware_merge_list_stable_refuted :
  ~ (forall (A T : Type) (comp : T -> T -> bool) (proj : A -> T), strict_weak_order comp -> sorts_list_stably (by_proj comp proj) (list_merge_sort comp proj)).
Proof.
  intros H. destruct (H nat nat Nat.ltb (fun x => x) nat_ltb_swo [(0, 5); (1, 5)]) as (l & E & _ & _ & SO).
  - repeat constructor; simpl; intuition lia.
  - vm_compute in E. injection E as <-. specialize (SO (0, 5)). vm_compute in SO. discriminate.
Qed.
Print Assumptions C65_container_aware_merge_list_stable_refuted.

Theorem C65_container_aware_merge_forward_list_stable_refuted :
  ~ (forall (A T : Type) (comp : T -> T -> bool) (proj : A -> T), strict_weak_order comp -> sorts_list_stably (by_proj comp proj) (flist_merge_sort comp proj)).
Proof.
  intros H. destruct (H nat nat Nat.ltb (fun x => x) nat_ltb_swo [(0, 5); (1, 5)]) as (l & E & _ & _ & SO).
  - repeat constructor; simpl; intuition lia.
  - vm_compute in E. injection E as <-. specialize (SO (0, 5)). vm_compute in SO. discriminate.
Qed.
Print Assumptions C65_container_aware_merge_forward_list_stable_refuted.

Theorem C66_container_aware_mel_sorts :
  forall (A T : Type) (comp : T -> T -> bool) (proj : A -> T), strict_weak_order comp ->
    sorts_list (by_proj comp proj) (list_mel_sort comp proj) /\ sorts_list (by_proj comp proj) (flist_mel_sort comp proj).
Proof. intros A T comp proj HC. split; [now apply list_mel_sort_sorts | now apply flist_mel_sort_sorts]. Qed.
Print Assumptions C66_container_aware_mel_sorts.

(** Nodes in no special order, with values that share three keys. *)
Example C63_case :
  strict_weak_order Nat.ltb /\ NoDup (map fst [(7, 5); (3, 1); (9, 3); (1, 2); (8, 4); (2, 0)]) /\
  list_insertion_sort Nat.ltb (fun x => x mod 3) [(7, 5); (3, 1); (9, 3); (1, 2); (8, 4); (2, 0)] = Done [(9, 3); (2, 0); (3, 1); (8, 4); (7, 5); (1, 2)] /\
  flist_insertion_sort Nat.ltb (fun x => x mod 3) [(7, 5); (3, 1); (9, 3); (1, 2); (8, 4); (2, 0)] = Done [(9, 3); (2, 0); (3, 1); (8, 4); (7, 5); (1, 2)].
Proof. split; [apply nat_ltb_swo|]. split; [repeat constructor; simpl; intuition lia|]. split; vm_compute; reflexivity. Qed.

Example C64_case :
  strict_weak_order Nat.ltb /\ NoDup (map fst [(7, 5); (3, 1); (9, 3); (1, 2); (8, 4); (2, 0)]) /\
  list_selection_sort Nat.ltb (fun x => x mod 3) [(7, 5); (3, 1); (9, 3); (1, 2); (8, 4); (2, 0)] = Done [(9, 3); (2, 0); (3, 1); (8, 4); (7, 5); (1, 2)] /\
  flist_selection_sort Nat.ltb (fun x => x mod 3) [(7, 5); (3, 1); (9, 3); (1, 2); (8, 4); (2, 0)] = Done [(9, 3); (2, 0); (3, 1); (8, 4); (7, 5); (1, 2)].
Proof. split; [apply nat_ltb_swo|]. split; [repeat constructor; simpl; intuition lia|]. split; vm_compute; reflexivity. Qed.

Example C65_case :
  strict_weak_order Nat.ltb /\ NoDup (map fst [(7, 5); (3, 1); (9, 3); (1, 2); (8, 4); (2, 0)]) /\
  list_merge_sort Nat.ltb (fun x => x mod 3) [(7, 5); (3, 1); (9, 3); (1, 2); (8, 4); (2, 0)] = Done [(2, 0); (9, 3); (8, 4); (3, 1); (1, 2); (7, 5)] /\
  flist_merge_sort Nat.ltb (fun x => x mod 3) [(7, 5); (3, 1); (9, 3); (1, 2); (8, 4); (2, 0)] = Done [(2, 0); (9, 3); (8, 4); (3, 1); (1, 2); (7, 5)].
Proof. split; [apply nat_ltb_swo|]. split; [repeat constructor; simpl; intuition lia|]. split; vm_compute; reflexivity. Qed.

(** Three encroaching lists, so that the odd merge happens. *)
Example C66_case :
  strict_weak_order Nat.ltb /\ NoDup (map fst [(7, 5); (3, 1); (9, 3); (1, 2); (8, 4); (2, 0)]) /\
  list_mel_sort Nat.ltb (fun x => x) [(7, 5); (3, 1); (9, 3); (1, 2); (8, 4); (2, 0)] = Done [(2, 0); (3, 1); (1, 2); (9, 3); (8, 4); (7, 5)] /\
  flist_mel_sort Nat.ltb (fun x => x) [(7, 5); (3, 1); (9, 3); (1, 2); (8, 4); (2, 0)] = Done [(2, 0); (3, 1); (1, 2); (9, 3); (8, 4); (7, 5)].
Proof. split; [apply nat_ltb_swo|]. split; [repeat constructor; simpl; intuition lia|]. split; vm_compute; reflexivity. Qed.
