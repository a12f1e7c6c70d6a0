(** C19: splay_sorter; C57 for it. *)
From Coq Require Import List Arith Permutation Lia Bool.
From Verif Require Import Spec.Order Lang.Mem Spec.Sorts Model.Splay Proofs.Examples Proofs.Splay.
Import ListNotations.

Theorem C19_splay_sorter_sorts_stably :
  forall (A T : Type) (comp : T -> T -> bool) (proj : A -> T),
    strict_weak_order comp -> sorts_stably (by_proj comp proj) (splay_sorter comp proj).
Proof. intros. now apply splay_sorts_stably. Qed.
Print Assumptions C19_splay_sorter_sorts_stably.

(** Keys with many equivalent elements, told apart by the second component: the insertions go through all of the
    zig, zig-zig and zig-zag rotations on both sides. *)
Definition C19_input : list (nat * nat) :=
  [(5, 0); (2, 1); (8, 2); (5, 3); (1, 4); (9, 5); (2, 6); (7, 7); (5, 8); (0, 9); (8, 10); (3, 11)].
Example C19_case :
  strict_weak_order Nat.ltb /\
  splay_sorter Nat.ltb fst 1 13 (map Val ((99, 0) :: C19_input ++ [(50, 0)])) =
    Ok tt (map Val ((99, 0) :: [(0, 9); (1, 4); (2, 1); (2, 6); (3, 11); (5, 0); (5, 3); (5, 8); (7, 7); (8, 2); (8, 10); (9, 5)] ++ [(50, 0)])).
Proof. split; [apply nat_ltb_swo|vm_compute; reflexivity]. Qed.

Theorem C57_splay_sorter_permutes :
  forall (A T : Type) (comp : T -> T -> bool) (proj : A -> T), permutes (splay_sorter comp proj).
Proof. intros. apply splay_permutes. Qed.
Print Assumptions C57_splay_sorter_permutes.

Example C57_splay_case :
  ~ strict_weak_order bad_comp /\
  exists ys, splay_sorter bad_comp (fun x => x) 1 7 (map Val [99; 4; 2; 6; 1; 3; 5; 50]) = Ok tt (map Val (99 :: ys ++ [50])).
Proof.
  split. { intros [H _ _]. specialize (H 0). discriminate. }
  destruct (splay_permutes bad_comp (fun x => x) [Val 99] [4; 2; 6; 1; 3; 5] [Val 50]) as (ys & E & _).
  exists ys. cbn [map app length Nat.add] in *. rewrite map_app. exact E.
Qed.
