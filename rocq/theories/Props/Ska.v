(** C25: ska_sorter on integral keys. *)
From Coq Require Import List Arith NArith ZArith Permutation Lia Bool.
From Verif Require Import Spec.Order Lang.Mem Spec.Sorts Spec.Verge Model.Counting Model.Ska Proofs.SkaKeys.
Import ListNotations.
Local Open Scope Z_scope.

(** bool, the unsigned and the signed integer types of 8 to 128 bits, and the character types that are unsigned.  The full claim would be on every
    integral type; it is false for char and wchar_t when they are signed, as the next theorem shows. *)
Theorem C25_ska_sorter_sorts_partial :
  forall (A : Type) (proj : A -> Z) (branchless : bool),
    sorts_when (Forall (fun x => 0 <= proj x <= 1)) (by_proj Z.ltb proj) (ska_sorter Bool proj branchless) /\
    (forall b, In b [8; 16; 32; 64; 128] ->
       sorts_when (Forall (fun x => 0 <= proj x < 2 ^ b)) (by_proj Z.ltb proj) (ska_sorter (Integer {| bits := b; signed := false |}) proj branchless) /\
       sorts_when (Forall (fun x => - 2 ^ (b - 1) <= proj x < 2 ^ (b - 1))) (by_proj Z.ltb proj) (ska_sorter (Integer {| bits := b; signed := true |}) proj branchless) /\
       sorts_when (Forall (fun x => 0 <= proj x < 2 ^ b)) (by_proj Z.ltb proj) (ska_sorter (Character {| bits := b; signed := false |}) proj branchless)).
Proof.
  intros A proj branchless. split.
  - intros pre xs post H. now apply (ska_sorter_sorts A Bool proj branchless I I).
  - intros b Hb. assert (HW : exists k, 0 < k /\ b = 8 * k). { exists (b / 8). cbn in Hb. intuition (subst; reflexivity). }
    split; [|split]; intros pre xs post H.
    + apply (ska_sorter_sorts A (Integer {| bits := b; signed := false |}) proj branchless HW I). eapply Forall_impl; [|exact H]. intros x Hx. unfold key_in_range, key_min, key_max, type_min, type_max. cbn [signed bits] in *. cbv beta in *. lia.
    + apply (ska_sorter_sorts A (Integer {| bits := b; signed := true |}) proj branchless HW I). eapply Forall_impl; [|exact H]. intros x Hx. unfold key_in_range, key_min, key_max, type_min, type_max. cbn [signed bits] in *. cbv beta in *. lia.
    + apply (ska_sorter_sorts A (Character {| bits := b; signed := false |}) proj branchless HW eq_refl). eapply Forall_impl; [|exact H]. intros x Hx. unfold key_in_range, key_min, key_max, type_min, type_max. cbn [signed bits] in *. cbv beta in *. lia.
Qed.
Print Assumptions C25_ska_sorter_sorts_partial.

(** char is signed on the most common platforms: 128 of them, the first of which is negative. *)
Theorem C25_ska_sorter_signed_character_refuted :
  ~ (forall (A : Type) (proj : A -> Z) (branchless : bool),
       sorts_when (Forall (fun x => - 2 ^ 7 <= proj x < 2 ^ 7)) (by_proj Z.ltb proj) (ska_sorter (Character {| bits := 8; signed := true |}) proj branchless)).
Proof.
  intros H. specialize (H Z (fun x => x) false [] (-1 :: repeat 0 127%nat) []) as (ys & E & _ & HS).
  - constructor; [lia|]. apply Forall_forall. intros x Hx. apply repeat_spec in Hx. lia.
  - assert (R : ska_sorter (Character {| bits := 8; signed := true |}) (fun x => x) false (length (@nil (cell Z))) (length (@nil (cell Z)) + length ((-1)%Z :: repeat 0%Z 127))%nat
      ([] ++ map Val (-1 :: repeat 0 127%nat) ++ []) = Ok tt (map Val (repeat 0 127%nat ++ [-1]))) by (vm_compute; reflexivity).
    rewrite R in E. apply (f_equal (fun r => match r with Ok _ m => m | _ => [] end)) in E. cbv beta iota in E. rewrite app_nil_r in E. cbn [app] in E.
    pose proof (f_equal (fun l => nth_error l 0%nat) E) as H0. pose proof (f_equal (fun l => nth_error l 127%nat) E) as H1. cbv beta in H0, H1. rewrite !nth_error_map in H0, H1.
    replace (nth_error (repeat 0 127%nat ++ [-1]) 0%nat) with (Some 0) in H0 by reflexivity. replace (nth_error (repeat 0 127%nat ++ [-1]) 127%nat) with (Some (-1)) in H1 by reflexivity.
    destruct (nth_error ys 0%nat) as [y0|] eqn:E0; [|discriminate]. destruct (nth_error ys 127%nat) as [y1|] eqn:E1; [|discriminate]. injection H0 as <-. injection H1 as <-.
    specialize (HS 0%nat 127%nat 0 (-1) ltac:(lia) E0 E1). discriminate HS.
Qed.
Print Assumptions C25_ska_sorter_signed_character_refuted.

(** 130 signed integers of 16 bits, from 64 down to -65. *)
Example C25_ska_case :
  Forall (fun x => - 2 ^ 15 <= x < 2 ^ 15) (map (fun i => 64 - Z.of_nat i) (seq 0 130)) /\
  ska_sorter (Integer {| bits := 16; signed := true |}) (fun x => x) false 1%nat 131%nat (map Val (99 :: map (fun i => 64 - Z.of_nat i) (seq 0 130) ++ [50])) =
    Ok tt (map Val (99 :: map (fun i => Z.of_nat i - 65) (seq 0 130) ++ [50])).
Proof.
  split; [|vm_compute; reflexivity]. apply Forall_forall. intros x Hx. apply in_map_iff in Hx as (i & <- & Hi). apply in_seq in Hi. lia.
Qed.
