(** C67, C68: ska_sorter and float_spread_sorter on float and double. *)
From Coq Require Import List Arith ZArith Bool Lia Permutation.
From Verif Require Import Lang.Mem Spec.Order Spec.Sorts Spec.Verge Model.Basic Model.Indirect Model.Comparators Model.Ieee Model.SpreadFloat Proofs.Ieee Proofs.SpreadFloat.
Import ListNotations.
Local Open Scope Z_scope.

(** ** C67: ska_sorter, for all the numbers that are not NaNs *)
Theorem C67_ska_sorter_floating_point_sorts :
  forall (A : Type) (f : format) (proj : A -> number f) (branchless : bool), f = binary32 \/ f = binary64 ->
    sorts (by_proj less proj) (float_ska_sorter proj branchless).
Proof. intros A f proj branchless Hf. now apply float_ska_sorts. Qed.
Print Assumptions C67_ska_sorter_floating_point_sorts.

(** The order of the numbers is the order of their values, whatever the signs, zeroes, subnormals and infinities. *)
Example C67_ska_floats_case :
  let num u (H : ((0 <=? u) && (u <? 2 ^ width binary32)) && negb (isnan (decode binary32 u)) = true) : number binary32 := exist _ u H in
  let one := num (127 * 2 ^ 23) eq_refl in let minus_two := num (2 ^ 31 + 128 * 2 ^ 23) eq_refl in let tiny := num 1 eq_refl in
  let minus_tiny := num (2 ^ 31 + 1) eq_refl in let inf := num (255 * 2 ^ 23) eq_refl in let minus_inf := num (2 ^ 31 + 255 * 2 ^ 23) eq_refl in
  let xs := concat (repeat [one; minus_inf; tiny; minus_two; inf; minus_tiny] 22%nat) in
  match float_ska_sorter (fun x => x) false 0%nat 132%nat (map Val xs) with
  | Ok tt m => Some (map (fun c => match c with Val x => Some (pattern x) | _ => None end) m)
  | _ => None
  end = Some (concat (map (fun x => repeat (Some (pattern x)) 22%nat) [minus_inf; minus_two; minus_tiny; tiny; one; inf])).
Proof. vm_compute. reflexivity. Qed.

(** ** C68: float_spread_sorter *)

(** Fewer than a thousand numbers; or every positive number (zero included) has a smaller magnitude than every negative one, and
    - for float, there is a positive number, or there is no -0.0, or two patterns are 2 ^ 12 apart;
    - for double, there is a positive number, or two patterns are 2 ^ 42 apart. *)
Theorem C68_float_spread_sorter_sorts_partial :
  (forall (A : Type) (proj : A -> number binary32) (branchless : bool),
     sorts_when (fun xs => (length xs < 1000)%nat \/
       (forall x y, In x xs -> In y xs -> pattern (proj x) < 2 ^ 31 <= pattern (proj y) -> pattern (proj x) + 2 ^ 31 < pattern (proj y)) /\
       ((exists x, In x xs /\ pattern (proj x) < 2 ^ 31) \/ (forall x, In x xs -> pattern (proj x) <> 2 ^ 31) \/
        (exists x y, In x xs /\ In y xs /\ 2 ^ 12 <= pattern (proj x) - pattern (proj y))))
     (by_proj less proj) (float_spread_sorter proj branchless)) /\
  (forall (A : Type) (proj : A -> number binary64) (branchless : bool),
     sorts_when (fun xs => (length xs < 1000)%nat \/
       (forall x y, In x xs -> In y xs -> pattern (proj x) < 2 ^ 63 <= pattern (proj y) -> pattern (proj x) + 2 ^ 63 < pattern (proj y)) /\
       ((exists x, In x xs /\ pattern (proj x) < 2 ^ 63) \/ (exists x y, In x xs /\ In y xs /\ 2 ^ 42 <= pattern (proj x) - pattern (proj y))))
     (by_proj less proj) (float_spread_sorter proj branchless)).
Proof.
  split; intros A proj branchless pre xs post H.
  - apply (float_spread_sorts proj branchless); [now left|]. apply usable_bits; [now left|]. destruct H as [H|[H1 [H|[H|H]]]]; [now left| | |]; right; (split; [exact H1|]); auto.
  - apply (float_spread_sorts proj branchless); [now right|]. apply usable_bits; [now right|]. destruct H as [H|[H1 [H|H]]]; [now left| |]; right; (split; [exact H1|]); auto.
Qed.
Print Assumptions C68_float_spread_sorter_sorts_partial.

(** The difference of the extreme representations overflows: a positive number whose magnitude is at least that of a negative one. *)
Theorem C68_float_spread_sorter_overflow_undefined :
  forall (A : Type) (f : format) (proj : A -> number f) (branchless : bool), f = binary32 \/ f = binary64 ->
  forall pre xs post, (1000 <= length xs)%nat -> ~ sorted (by_proj less proj) xs ->
    (exists x y, In x xs /\ In y xs /\ pattern (proj x) < 2 ^ (width f - 1) <= pattern (proj y) /\ pattern (proj y) <= pattern (proj x) + 2 ^ (width f - 1)) ->
    float_spread_sorter proj branchless (length pre) (length pre + length xs)%nat (pre ++ map Val xs ++ post) = UB.
Proof. intros A f proj branchless Hf pre xs post HL HN HO. apply float_spread_overflow; auto. now apply overflow_bits. Qed.
Print Assumptions C68_float_spread_sorter_overflow_undefined.

(** The negation of the smallest representation overflows: -0.0 among numbers of almost the same magnitude. *)
Theorem C68_float_spread_sorter_negative_zero_undefined :
  forall (A : Type) (f : format) (proj : A -> number f) (branchless : bool), f = binary32 \/ f = binary64 ->
  forall pre xs post, (1000 <= length xs)%nat -> ~ sorted (by_proj less proj) xs ->
    (forall x, In x xs -> 2 ^ (width f - 1) <= pattern (proj x) < 2 ^ (width f - 1) + 2 ^ 10) -> (exists x, In x xs /\ pattern (proj x) = 2 ^ (width f - 1)) ->
    float_spread_sorter proj branchless (length pre) (length pre + length xs)%nat (pre ++ map Val xs ++ post) = UB.
Proof.
  intros A f proj branchless Hf pre xs post HL HN HR (x & Hx & Ex). destruct (negative_bits proj Hf xs (2 ^ (width f - 1)) ltac:(lia) HR) as [H1 H2]. apply float_spread_negation; auto.
  exists x. split; auto. destruct (H1 x Hx) as [-> _]. lia.
Qed.
Print Assumptions C68_float_spread_sorter_negative_zero_undefined.

(** The number of the bins of negative numbers is truncated: negative doubles of almost the same magnitude are sorted in the reverse order
    if the low 32 bits of the greatest are zero. *)
Theorem C68_float_spread_sorter_truncation_reverses :
  forall (A : Type) (proj : A -> number binary64) (branchless : bool) (q : Z), 2 ^ 63 < q -> q mod 2 ^ 32 = 0 ->
  forall pre xs post, (1000 <= length xs)%nat -> ~ sorted (by_proj less proj) xs ->
    (forall x, In x xs -> q <= pattern (proj x) < q + 2 ^ 10) -> (exists x, In x xs /\ pattern (proj x) = q) ->
    exists ys, float_spread_sorter proj branchless (length pre) (length pre + length xs)%nat (pre ++ map Val xs ++ post) = Ok tt (pre ++ map Val ys ++ post) /\
      is_sorting_of (fun x y => less (proj y) (proj x)) xs ys.
Proof.
  intros A proj branchless q Hq Hq0 pre xs post HL HN HR (x & Hx & Ex). destruct (negative_bits proj (or_intror eq_refl) xs q ltac:(change (width binary64 - 1) with 63; lia) HR) as [H1 H2]. change (width binary64 - 1) with 63 in H1.
  apply (float_spread_reverses proj branchless (or_intror eq_refl)); auto; [intros z Hz; apply (H1 z Hz)|]. exists (q - 2 ^ 64). split; [|split; [|split]].
  - exists x. split; auto. destruct (H1 x Hx) as [-> _]. lia.
  - intros z Hz. destruct (H1 z Hz) as [-> _]. specialize (HR z Hz). lia.
  - change (width binary64 - 1) with 63. lia.
  - change (2 ^ 64) with (2 ^ 32 * 2 ^ 32). replace (q - 2 ^ 32 * 2 ^ 32) with (q + (- 2 ^ 32) * 2 ^ 32) by lia. rewrite Z.mod_add by lia. exact Hq0.
Qed.
Print Assumptions C68_float_spread_sorter_truncation_reverses.

(** A thousand doubles, -1.0 but for the last, which is the one before -1.0. *)
Theorem C68_float_spread_sorter_double_refuted :
  exists xs : list (number binary64), length xs = (10 * 10 * 10)%nat /\ (forall x, In x xs -> less x (exist _ 0 eq_refl) = true) /\
    exists ys, float_spread_sorter (fun x => x) false 0%nat (length xs) (map Val xs) = Ok tt (map Val ys) /\ ~ sorted less ys.
Proof.
  set (one := exist (fun u => ((0 <=? u) && (u <? 2 ^ width binary64)) && negb (isnan (decode binary64 u)) = true) (2 ^ 63 + 1023 * 2 ^ 52) eq_refl : number binary64).
  set (before := exist (fun u => ((0 <=? u) && (u <? 2 ^ width binary64)) && negb (isnan (decode binary64 u)) = true) (2 ^ 63 + 1023 * 2 ^ 52 + 1) eq_refl : number binary64).
  set (xs := one :: one :: repeat before (9 * 111 - 1)%nat). assert (Hin : forall x, In x xs -> x = one \/ x = before). { intros x [<-|[<-|H]]; auto. apply repeat_spec in H. auto. }
  assert (HL : length xs = (10 * 10 * 10)%nat) by (unfold xs; cbn [length]; rewrite repeat_length; reflexivity). exists xs. split; auto. split.
  { intros x Hx. destruct (Hin x Hx) as [->| ->]; vm_compute; reflexivity. }
  assert (Hlt : less before one = true) by (vm_compute; reflexivity).
  assert (HN : ~ sorted (by_proj less (fun x : number binary64 => x)) xs). { intros H. specialize (H 0%nat 2%nat one before ltac:(lia) eq_refl eq_refl). unfold by_proj in H. congruence. }
  destruct (C68_float_spread_sorter_truncation_reverses (number binary64) (fun x => x) false (2 ^ 63 + 1023 * 2 ^ 52) ltac:(lia) eq_refl [] xs [] ltac:(rewrite HL; lia) HN) as (ys & E & HP & HS).
  { intros x Hx. destruct (Hin x Hx) as [->| ->]; unfold one, before, pattern, proj1_sig; lia. }
  { exists one. split; [now left|reflexivity]. }
  exists ys. cbn [length plus app] in E. rewrite !app_nil_r in E. split; auto. intros H.
  assert (H1 : In one ys) by (apply (Permutation_in _ HP); now left). assert (H2 : In before ys) by (apply (Permutation_in _ HP); right; right; now left).
  apply In_nth_error in H1 as [i Hi]. apply In_nth_error in H2 as [j Hj]. destruct (Nat.lt_trichotomy i j) as [L|[->|L]].
  - specialize (H i j _ _ L Hi Hj). congruence.
  - rewrite Hi in Hj. assert (E' : pattern one = pattern before) by congruence. discriminate E'.
  - specialize (HS j i _ _ L Hj Hi). cbv beta in HS. congruence.
Qed.
Print Assumptions C68_float_spread_sorter_double_refuted.

(** A thousand floats from -1.0 down, in no order. *)
Example C68_float_spread_case :
  let num (k : Z) (H : _ = true) : number binary32 := exist (fun u => ((0 <=? u) && (u <? 2 ^ width binary32)) && negb (isnan (decode binary32 u)) = true) (2 ^ 31 + 127 * 2 ^ 23 + k) H in
  let base := [num 2 eq_refl; num 0 eq_refl; num 3 eq_refl; num 1 eq_refl; num 4 eq_refl] in let xs := concat (repeat base (2 * 100)%nat) in
  (length xs = 10 * 10 * 10)%nat /\ ((forall x y, In x xs -> In y xs -> pattern x < 2 ^ 31 <= pattern y -> pattern x + 2 ^ 31 < pattern y) /\ forall x, In x xs -> pattern x <> 2 ^ 31) /\
  match float_spread_sorter (fun x => x) false 0%nat (10 * 10 * 10)%nat (map Val xs) with
  | Ok tt m => Some (map (fun c => match c with Val x => Some (pattern x) | _ => None end) m)
  | _ => None
  end = Some (concat (map (fun x => repeat (Some (pattern x)) (2 * 100)%nat) [num 4 eq_refl; num 3 eq_refl; num 2 eq_refl; num 1 eq_refl; num 0 eq_refl])).
Proof.
  cbv zeta. split; [|split].
  - vm_compute. reflexivity.
  - assert (Hin : forall (l : list (number binary32)) n x, In x (concat (repeat l n)) -> In x l). { intros l n x Hx. apply in_concat in Hx as (l' & Hl & Hx). apply repeat_spec in Hl. now subst. }
    split; [intros x y Hx Hy [Hlt _]|intros x Hx]; apply Hin in Hx; cbn [In] in Hx; repeat (destruct Hx as [<-|Hx]); cbn [pattern proj1_sig] in *; try lia; destruct Hx.
  - vm_compute. reflexivity.
Qed.
