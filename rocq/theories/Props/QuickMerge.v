(** C09: quick_merge_sorter; C61: nth_element. *)
From Coq Require Import List Arith Permutation Lia Bool.
From Verif Require Import Spec.Order Lang.Mem Spec.Sorts Spec.Select Model.Rotate Model.Quick Model.Select
  Proofs.OrderLib Proofs.Wp Proofs.Examples Proofs.QuickMerge Proofs.QuickMergeAny.
Import ListNotations.

(** ** C09 *)

(** The iterator category selects the selection algorithm and the sort of the small collections. *)
Theorem C09_quick_merge_sorter_sorts :
  forall (A T : Type) (comp : T -> T -> bool) (proj : A -> T) (cat : category),
    strict_weak_order comp -> sorts (by_proj comp proj) (quick_merge_sorter comp proj cat).
Proof. intros. now apply quick_merge_sorts. Qed.
Print Assumptions C09_quick_merge_sorter_sorts.

(** 70 elements, sorted by their remainders modulo 53. *)
Definition C09_input : list nat := map (fun i => (i * 37) mod 101) (seq 0 70).
Definition C09_run (cat : category) : list nat :=
  match quick_merge_sorter Nat.ltb (fun x => x mod 53) cat 1 71 (map Val (100 :: C09_input ++ [0])) with
  | Ok _ m => map (fun c => match c with Val x => x mod 53 | _ => 99 end) m
  | _ => []
  end.
Example C09_case :
  strict_weak_order Nat.ltb /\ length C09_input = 70 /\
  C09_run Forward = C09_run RandomAccess /\ C09_run Bidirectional = C09_run RandomAccess /\
  C09_run RandomAccess =
   [47; 0; 0; 2; 2; 3; 3; 4; 5; 6; 6; 7; 8; 9; 9; 10; 10; 12; 13; 13; 14; 15;
   16; 16; 17; 18; 19; 19; 20; 20; 21; 22; 23; 23; 24; 25; 26; 26; 27; 28;
   29; 29; 30; 30; 31; 32; 33; 33; 34; 35; 36; 36; 37; 37; 39; 39; 40; 40;
   41; 42; 43; 43; 44; 45; 46; 46; 47; 47; 49; 50; 52; 0].
Proof. split; [apply nat_ltb_swo|]. repeat split; vm_compute; reflexivity. Qed.

(** ** C57 *)

(** Any comparator; with random-access iterators, any asymmetric one (see the refutation in Props/Unsafe.v). *)
Theorem C57_quick_merge_sorter_permutes :
  forall (A T : Type) (comp : T -> T -> bool) (proj : A -> T) (cat : category),
    (cat = RandomAccess -> forall x y, by_proj comp proj x y = true -> by_proj comp proj y x = false) ->
    permutes (quick_merge_sorter comp proj cat).
Proof. exact quick_merge_permutes. Qed.
Print Assumptions C57_quick_merge_sorter_permutes.

(** Rock, paper, scissors: asymmetric, not transitive. *)
Definition beats (x y : nat) : bool := y mod 3 =? S x mod 3.
Example C57_quick_merge_case :
  (forall x y, beats x y = true -> beats y x = false) /\ (beats 0 1, beats 1 2, beats 2 0) = (true, true, true) /\
  (exists ys, quick_merge_sorter beats (fun x => x) RandomAccess 0 40 (map Val (seq 0 40)) = Ok tt (map Val ys) /\ ys <> seq 0 40).
Proof.
  split; [|split; [reflexivity|]].
  - intros x y. unfold beats. rewrite Nat.eqb_eq, Nat.eqb_neq.
    pose proof (Nat.div_mod x 3 ltac:(lia)). pose proof (Nat.mod_upper_bound x 3 ltac:(lia)).
    pose proof (Nat.div_mod y 3 ltac:(lia)). pose proof (Nat.mod_upper_bound y 3 ltac:(lia)).
    replace (S x) with (S (x mod 3) + x / 3 * 3) by lia. replace (S y) with (S (y mod 3) + y / 3 * 3) by lia. rewrite !Nat.mod_add by lia.
    generalize dependent (x mod 3). generalize dependent (y mod 3). intros b Eb Hb a Ea Ha E.
    destruct a as [|[|[|a]]]; [| | |lia]; destruct b as [|[|[|b]]]; try lia; cbn in *; lia.
  - exists (match quick_merge_sorter beats (fun x => x) RandomAccess 0 40 (map Val (seq 0 40)) with
            | Ok _ m => map (fun c => match c with Val x => x | _ => 0 end) m | _ => [] end).
    split; vm_compute; [reflexivity|discriminate].
Qed.

(** ** C61 *)

Theorem C61_nth_element_random_access_selects :
  forall (A T : Type) (comp : T -> T -> bool) (proj : A -> T),
    strict_weak_order comp ->
    selects_nth (by_proj comp proj) (fun first last k => nth_element comp proj RandomAccess first last k (last - first)).
Proof. intros. now apply nth_element_selects. Qed.
Print Assumptions C61_nth_element_random_access_selects.

Theorem C61_nth_element_splits :
  forall (A T : Type) (comp : T -> T -> bool) (proj : A -> T) (cat : category),
    strict_weak_order comp ->
    splits_nth (by_proj comp proj) (fun first last k => nth_element comp proj cat first last k (last - first)).
Proof. intros. now apply nth_element_splits. Qed.
Print Assumptions C61_nth_element_splits.

Example C61_case :
  strict_weak_order Nat.ltb /\ 17 < length (rev (seq 0 33)) /\
  (exists m, nth_element Nat.ltb (fun x => x) RandomAccess 0 33 17 33 (map Val (rev (seq 0 33))) = Ok 17 m /\ nth_error m 17 = Some (Val 17)).
Proof.
  split; [apply nat_ltb_swo|]. split; [vm_compute; lia|]. eexists. split; [vm_compute; reflexivity|reflexivity].
Qed.

(** detail/introselect.h:307 tests [nth_pos > size_left + size_middle] where the first position of the right part is
    [size_left + size_middle]: asked for that position, it returns before that part is partitioned.  The position number 17 of the
    33 numbers from 32 down to 0 receives 18. *)
Theorem C61_nth_element_bidirectional_selects_refuted :
  ~ (forall (A T : Type) (comp : T -> T -> bool) (proj : A -> T),
    strict_weak_order comp ->
    selects_nth (by_proj comp proj) (fun first last k => nth_element comp proj Bidirectional first last k (last - first))).
Proof.
  intros H. destruct (H nat nat Nat.ltb (fun x => x) nat_ltb_swo [] (rev (seq 0 33)) [] 17) as (ls & z & rs & E & HL & HP & H1 & H2).
  { vm_compute. lia. }
  assert (exists m, nth_element Nat.ltb (fun x => x) Bidirectional 0 33 17 33 (map Val (rev (seq 0 33))) = Ok 17 m /\
    nth_error m 17 = Some (Val 18) /\ nth_error m 32 = Some (Val 17)) as (m & E' & Hz & Hy).
  { eexists. split; [vm_compute; reflexivity|]. split; reflexivity. }
  change (nth_element Nat.ltb (fun x => x) Bidirectional 0 33 17 33 (map Val (rev (seq 0 33)) ++ []) =
    Ok 17 (map Val (ls ++ z :: rs) ++ [])) in E. rewrite !app_nil_r, E' in E. injection E as ->.
  rewrite nth_error_map, nth_error_app2 in Hz by lia. rewrite HL, Nat.sub_diag in Hz. injection Hz as ->.
  rewrite nth_error_map, nth_error_app2 in Hy by lia. rewrite HL in Hy. change (32 - 17) with (S 14) in Hy. change (option_map Val (nth_error rs 14) = Some (Val 17)) in Hy.
  destruct (nth_error rs 14) as [y|] eqn:Ey; [|discriminate Hy]. injection Hy as ->.
  apply nth_error_In in Ey. specialize (H2 _ Ey). discriminate H2.
Qed.
Print Assumptions C61_nth_element_bidirectional_selects_refuted.
