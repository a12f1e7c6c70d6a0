(** C16: mel_sorter. *)
From Coq Require Import List Arith Permutation Lia Bool.
From Verif Require Import Spec.Order Lang.Mem Spec.Sorts Model.Mel Proofs.Examples Proofs.Mel.
Import ListNotations.

Theorem C16_mel_sorter_sorts :
  forall (A T : Type) (comp : T -> T -> bool) (proj : A -> T),
    strict_weak_order comp -> sorts (by_proj comp proj) (mel_sorter comp proj).
Proof. intros A T comp proj HW. apply melsort_sorts. now apply Proofs.OrderLib.swo_by_proj. Qed.
Print Assumptions C16_mel_sorter_sorts.

(** Five lists for eleven elements, so the heads and the tails of the lists are merged last; then two lists for eight elements. *)
Example C16_case :
  strict_weak_order Nat.ltb /\
  mel_sorter Nat.ltb (fun x => x) 1 12 (map Val (99 :: [1; 20; 2; 19; 3; 18; 4; 17; 5; 16; 10] ++ [50])) =
    Ok tt (map Val (99 :: [1; 2; 3; 4; 5; 10; 16; 17; 18; 19; 20] ++ [50])) /\
  mel_sorter Nat.ltb (fun x => x) 1 9 (map Val (99 :: [4; 6; 5; 3; 7; 2; 8; 4] ++ [50])) =
    Ok tt (map Val (99 :: [2; 3; 4; 4; 5; 6; 7; 8] ++ [50])).
Proof. split; [apply nat_ltb_swo|split; vm_compute; reflexivity]. Qed.

(** Without a strict weak order, a list may be empty when its last node is extracted. *)
Theorem C16_mel_sorter_any_comparator_refuted :
  ~ (forall (A T : Type) (comp : T -> T -> bool) (proj : A -> T), permutes (mel_sorter comp proj)).
Proof.
  intros H. destruct (H nat nat (fun _ _ => true) (fun x => x) [] [8; 7; 9] []) as (ys & E & _). vm_compute in E. discriminate.
Qed.
Print Assumptions C16_mel_sorter_any_comparator_refuted.
